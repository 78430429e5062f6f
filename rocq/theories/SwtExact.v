(** C25, exactly: for which pad widths circular padding continues the periodic extension. *)
From Coq Require Import List Arith ZArith Lia Bool String.
From Coq Require Import ZifyNat ZifyBool.
From Verif Require Import Base Sums Tensor TensorFacts Util Perm Plumb Accept Spec Swt SpecSwt SwtFacts SwtDec PropsSwt Examples.
Import ListNotations.
Ltac Zify.zify_post_hook ::= Z.div_mod_to_equations.

Lemma clist_right fuel n : 0 < n -> forall l padr, n <= List.length l -> padr <= fuel ->
  exists r, clist fuel n l 0 padr = l ++ r /\ (0 < padr -> nth 0 r 0 = nth 0 l 0).
Proof.
  intros Hn. induction fuel as [|fuel IH]; intros l padr Hl Hf.
  - assert (padr = 0) as -> by lia. exists []. rewrite clist_stop, app_nil_r. split; [reflexivity|lia].
  - destruct (Nat.eq_dec padr 0) as [->|Hp]; [exists []; rewrite clist_stop, app_nil_r; split; [reflexivity|lia]|].
    cbn [clist]. replace (Nat.ltb 0 0 || Nat.ltb 0 padr) with true by (symmetry; apply orb_true_iff; right; apply Nat.ltb_lt; lia).
    replace (cw l (Nat.min n 0) (Nat.min n padr)) with (l ++ firstn (Nat.min n padr) l).
    2: { unfold cw. rewrite Nat.min_0_r, Nat.sub_0_r, skipn_all. reflexivity. }
    destruct (IH (l ++ firstn (Nat.min n padr) l) (padr - n)) as (r & E & _); [rewrite app_length; lia|lia|].
    cbn [Nat.sub] in *. exists (firstn (Nat.min n padr) l ++ r). rewrite E, app_assoc. split; [reflexivity|]. intros _.
    rewrite app_nth1 by (rewrite firstn_length; lia). apply nth_firstn'. lia.
Qed.
Lemma clist_left fuel n : 0 < n -> forall l padl, n <= List.length l -> padl <= fuel ->
  exists r, clist fuel n l padl 0 = r ++ l /\ List.length r = padl /\ (0 < padl -> nth (padl - 1) r 0 = nth (List.length l - 1) l 0).
Proof.
  intros Hn. induction fuel as [|fuel IH]; intros l padl Hl Hf.
  - assert (padl = 0) as -> by lia. exists []. rewrite clist_stop. split; [reflexivity|]. split; [reflexivity|lia].
  - destruct (Nat.eq_dec padl 0) as [->|Hp]; [exists []; rewrite clist_stop; split; [reflexivity|split; [reflexivity|lia]]|].
    cbn [clist]. replace (Nat.ltb 0 padl || Nat.ltb 0 0) with true by (symmetry; apply orb_true_iff; left; apply Nat.ltb_lt; lia).
    set (q := skipn (List.length l - Nat.min n padl) l). assert (Lq : List.length q = Nat.min n padl) by (unfold q; rewrite skipn_length; lia).
    replace (cw l (Nat.min n padl) (Nat.min n 0)) with (q ++ l).
    2: { unfold cw. rewrite Nat.min_0_r. cbn [firstn]. rewrite app_nil_r. reflexivity. }
    destruct (IH (q ++ l) (padl - n)) as (r & E & Lr & _); [rewrite app_length; lia|lia|].
    cbn [Nat.sub] in *. exists (r ++ q). rewrite E, app_assoc. split; [reflexivity|]. split; [rewrite app_length; lia|]. intros _.
    rewrite app_nth2 by lia. unfold q. rewrite nth_skipn'. f_equal. lia.
Qed.
Lemma rounds_1 n p : 0 < n -> 0 < p <= n -> rounds n p = 1.
Proof. intros Hn Hp. pose proof (rounds_le1 n p Hn). pose proof (rounds_pos n p Hn). lia. Qed.
Lemma circ_ok_add n p q : 0 < n -> n <= p -> n <= q -> circ_ok n (p - n) (q - n) -> circ_ok n p q.
Proof.
  intros Hn Hp Hq [H1 H2]. rewrite !rounds_sub in H1, H2 by exact Hn.
  assert (M : forall r, n <= r -> (r - n) mod n = 0 -> r mod n = 0) by (intros r Hr E; replace r with ((r - n) + 1 * n) by lia; rewrite Nat.mod_add by lia; exact E).
  pose proof (rounds_pos n p Hn ltac:(lia)). pose proof (rounds_pos n q Hn ltac:(lia)). split; [destruct H1 as [H1|H1]|destruct H2 as [H2|H2]]; auto; right; lia.
Qed.
Lemma circ_ok_le n p q : 0 < n -> p <= n -> q <= n -> circ_ok n p q.
Proof. intros Hn Hp Hq. apply C25_when_ok; auto. Qed.
Lemma cyc_mod n z z' : 0 < n -> cyc n z = cyc n z' -> ((z - z') mod Z.of_nat n = 0)%Z.
Proof.
  intros Hn E. unfold cyc in E. pose proof (Z.mod_pos_bound z (Z.of_nat n)). pose proof (Z.mod_pos_bound z' (Z.of_nat n)).
  assert (E' : (z mod Z.of_nat n = z' mod Z.of_nat n)%Z) by lia. rewrite Zminus_mod, E', Z.sub_diag. apply Z.mod_0_l. lia.
Qed.
Lemma mod_nn m n : 0 < n -> m mod n = 0 -> (m + n + n) mod n = 0.
Proof. intros Hn Hm. replace (m + n + n) with (m + 2 * n) by lia. rewrite Nat.mod_add by lia. exact Hm. Qed.
Lemma clist_exact fuel n : 0 < n -> forall l padl padr a, n <= List.length l -> padl + padr <= fuel ->
  l = pwin n a (List.length l) -> List.length l mod n = 0 ->
  clist fuel n l padl padr = pwin n (a + padl) (List.length l + padl + padr) -> circ_ok n padl padr.
Proof.
  intros Hn. induction fuel as [|fuel IH]; intros l padl padr a Hl Hf Hw Hm HE.
  - apply circ_ok_le; lia.
  - destruct (Nat.le_gt_cases padl n) as [A|A], (Nat.le_gt_cases padr n) as [B|B]; [apply circ_ok_le; lia| | |].
    + (* padl <= n < padr *)
      destruct (Nat.eq_dec padl n) as [A1|A1]; [|destruct (Nat.eq_dec padl 0) as [->|A2]; [apply circ_ok_zero; exact Hn|]].
      * cbn [clist] in HE. replace (Nat.ltb 0 padl || Nat.ltb 0 padr) with true in HE by (symmetry; apply orb_true_iff; right; apply Nat.ltb_lt; lia).
        rewrite !Nat.min_l in HE by lia. assert (Lc : List.length (cw l n n) = List.length l + n + n) by (apply cw_length; lia).
        apply circ_ok_add; [exact Hn|lia|lia|]. apply (IH (cw l n n) _ _ (a + n)); rewrite ?Lc; try lia.
        -- rewrite Hw at 1. apply cw_pwin; auto.
        -- apply mod_nn; assumption.
        -- rewrite HE. f_equal; lia.
      * exfalso. cbn [clist] in HE. replace (Nat.ltb 0 padl || Nat.ltb 0 padr) with true in HE by (symmetry; apply orb_true_iff; right; apply Nat.ltb_lt; lia).
        replace (Nat.min n padl) with padl in HE by lia. replace (Nat.min n padr) with n in HE by lia. replace (padl - n) with 0 in HE by lia.
        assert (Lc : List.length (cw l padl n) = List.length l + padl + n) by (apply cw_length; lia).
        assert (Ec : cw l padl n = pwin n (a + padl) (List.length l + padl + n)) by (rewrite Hw at 1; apply cw_pwin; auto; lia).
        destruct (clist_right fuel n Hn (cw l padl n) (padr - n)) as (r & E & Er); [lia|lia|]. rewrite E in HE.
        apply (f_equal (fun t => nth (List.length l + padl + n) t 0)) in HE. cbn beta in HE.
        rewrite app_nth2, Lc in HE by lia. replace (List.length l + padl + n - (List.length l + padl + n)) with 0 in HE by lia.
        rewrite Er, Ec in HE by lia. rewrite !pwin_nth in HE by lia. apply cyc_mod in HE; [|exact Hn].
        apply Z.mod_divide in HE as [k Hk]; [|lia]. assert (exists c, List.length l = c * n) as [c Hc] by (exists (List.length l / n); lia). rewrite Hc in Hk.
        assert (Hu : (Z.of_nat padl = (- k - Z.of_nat c - 1) * Z.of_nat n)%Z) by (clear - Hk; nia). set (u := (- k - Z.of_nat c - 1)%Z) in *. clearbody u. clear - Hu A A1 A2. destruct (Z.le_gt_cases u 0); nia.
    + (* padr <= n < padl *)
      destruct (Nat.eq_dec padr n) as [A1|A1]; [|destruct (Nat.eq_dec padr 0) as [->|A2]; [apply circ_ok_sym, circ_ok_zero; exact Hn|]].
      * cbn [clist] in HE. replace (Nat.ltb 0 padl || Nat.ltb 0 padr) with true in HE by (symmetry; apply orb_true_iff; right; apply Nat.ltb_lt; lia).
        rewrite !Nat.min_l in HE by lia. assert (Lc : List.length (cw l n n) = List.length l + n + n) by (apply cw_length; lia).
        apply circ_ok_add; [exact Hn|lia|lia|]. apply (IH (cw l n n) _ _ (a + n)); rewrite ?Lc; try lia.
        -- rewrite Hw at 1. apply cw_pwin; auto.
        -- apply mod_nn; assumption.
        -- rewrite HE. f_equal; lia.
      * exfalso. cbn [clist] in HE. replace (Nat.ltb 0 padl || Nat.ltb 0 padr) with true in HE by (symmetry; apply orb_true_iff; left; apply Nat.ltb_lt; lia).
        replace (Nat.min n padl) with n in HE by lia. replace (Nat.min n padr) with padr in HE by lia. replace (padr - n) with 0 in HE by lia.
        assert (Lc : List.length (cw l n padr) = List.length l + n + padr) by (apply cw_length; lia).
        assert (Ec : cw l n padr = pwin n (a + n) (List.length l + n + padr)) by (rewrite Hw at 1; apply cw_pwin; auto; lia).
        destruct (clist_left fuel n Hn (cw l n padr) (padl - n)) as (r & E & Lr & Er); [lia|lia|]. rewrite E in HE.
        apply (f_equal (fun t => nth (padl - n - 1) t 0)) in HE. cbn beta in HE.
        rewrite app_nth1 in HE by lia. rewrite Er, Lc, Ec in HE by lia. rewrite !pwin_nth in HE by lia. apply cyc_mod in HE; [|exact Hn].
        apply Z.mod_divide in HE as [k Hk]; [|lia]. assert (exists c, List.length l = c * n) as [c Hc] by (exists (List.length l / n); lia). rewrite Hc in Hk.
        assert (Hu : exists u, (Z.of_nat padr = u * Z.of_nat n)%Z) by (exists (k - Z.of_nat c - 1)%Z; clear - Hk A Hn; nia). destruct Hu as [u Hu]. clear - Hu B A1 A2. destruct (Z.le_gt_cases u 0); nia.
    + cbn [clist] in HE. replace (Nat.ltb 0 padl || Nat.ltb 0 padr) with true in HE by (symmetry; apply orb_true_iff; right; apply Nat.ltb_lt; lia).
      rewrite !Nat.min_l in HE by lia. assert (Lc : List.length (cw l n n) = List.length l + n + n) by (apply cw_length; lia).
      apply circ_ok_add; [exact Hn|lia|lia|]. apply (IH (cw l n n) _ _ (a + n)); rewrite ?Lc; try lia.
      * rewrite Hw at 1. apply cw_pwin; auto; lia.
      * apply mod_nn; assumption.
      * rewrite HE. f_equal; lia.
Qed.

Section SE.
Context {K : CRing}.
(** _circular_pad continues the periodic extension of every signal of length n exactly when no partial wrap of one side is
    followed by another round for the other side *)
Theorem C25_exact n padl padr : (kone : K) <> kzero -> 0 < n ->
  (circ_ok n padl padr <->
   forall x : tensor K, wf x -> shp x = [1; 1; n] -> exists p, circular_pad x padl padr = Ok p /\ shp p = [1; 1; n + padl + padr] /\
     forall o, o < n + padl + padr -> get p [0; 0; o] = get x [0; 0; Z.to_nat ((Z.of_nat o - Z.of_nat padl) mod Z.of_nat n)]).
Proof.
  intros H01 Hn. split.
  - intros Hok x Hw Hs. destruct (C25_circular_pad_partial x 1 1 n padl padr Hw Hs Hn Hok) as (p & E & Sp & G). exists p. split; [exact E|]. split; [exact Sp|]. intros o Ho. apply G; lia.
  - intros H. destruct (circ_list_ok n padl padr Hn) as (Ll & Hlt & _).
    apply (clist_exact (padl + padr) n Hn (seq 0 n) padl padr 0); rewrite ?seq_length; auto; [apply seq_pwin|apply Nat.mod_same; lia|].
    change (clist (padl + padr) n (seq 0 n) padl padr) with (circ_list n padl padr). cbn [Nat.add]. apply (nth_ext_len _ _ 0); [rewrite Ll, pwin_length; reflexivity|].
    intros o Ho. rewrite Ll in Ho. set (v := nth o (circ_list n padl padr) 0).
    assert (Hv : v < n) by (rewrite Forall_forall in Hlt; apply Hlt, nth_In; lia).
    set (x := tmake (K := K) f32 [1; 1; n] (fun idx => if Nat.eqb (nth 2 idx 0) v then kone else kzero)).
    destruct (H x (wf_make _ _ _) (shp_make _ _ _)) as (p & E & _ & G).
    assert (E' : circular_pad x padl padr = Ok (sel2 x (circ_list n padl padr))) by (apply (circular_pad_ok x 1 1); auto; apply wf_make).
    rewrite E' in E. injection E as <-. specialize (G o Ho). unfold sel2 in G at 1. rewrite get_make in G.
    2: { cbn [shp x]. rewrite Ll. repeat constructor; cbn; lia. }
    cbn [nth] in G. fold v in G.
    assert (Hc : Z.to_nat ((Z.of_nat o - Z.of_nat padl) mod Z.of_nat n) < n) by (pose proof (Z.mod_pos_bound (Z.of_nat o - Z.of_nat padl) (Z.of_nat n)); lia).
    unfold x in G. rewrite !get_make in G by (repeat constructor; lia). cbn [nth] in G. rewrite Nat.eqb_refl in G. rewrite pwin_nth by lia. unfold cyc.
    destruct (Nat.eqb_spec (Z.to_nat ((Z.of_nat o - Z.of_nat padl) mod Z.of_nat n)) v); [congruence|]. contradiction.
Qed.
End SE.
