(** The stationary transform: circular padding, one level, the whole transform. *)
From Coq Require Import List Arith ZArith Lia Bool String.
From Coq Require Import ZifyNat ZifyBool.
From Verif Require Import Base Sums Tensor TensorFacts Util Perm Plumb Accept Spec Conv1 PadFacts CoreFacts Analysis Synthesis Filters Wave1 Wave1Inv Rec1 SpecSwt Swt.
Import ListNotations.
Ltac Zify.zify_post_hook ::= Z.div_mod_to_equations.

(** * Circular padding of index lists *)
Definition cw (l : list nat) (pl pr : nat) : list nat := skipn (List.length l - pl) l ++ l ++ firstn pr l.
Definition pwin (n a len : nat) : list nat := map (fun i => cyc n (Z.of_nat i - Z.of_nat a)) (seq 0 len).
(** the number of rounds the loop spends on a pad width *)
Definition rounds (n p : nat) : nat := (p + n - 1) / n.
(** no partial wrap is followed by another round *)
Definition circ_ok (n padl padr : nat) : Prop :=
  (padl mod n = 0 \/ rounds n padr <= rounds n padl) /\ (padr mod n = 0 \/ rounds n padl <= rounds n padr).

Lemma cyc_lt n z : 0 < n -> cyc n z < n.
Proof. intros H. unfold cyc. pose proof (Z.mod_pos_bound z (Z.of_nat n)). lia. Qed.
Lemma cyc_add n z k : 0 < n -> cyc n (z + Z.of_nat n * k) = cyc n z.
Proof. intros H. unfold cyc. rewrite Z.mul_comm, Z.mod_add by lia. reflexivity. Qed.
Lemma cyc_cyc n z y : 0 < n -> cyc n (Z.of_nat (cyc n z) + y) = cyc n (z + y).
Proof. intros H. unfold cyc. pose proof (Z.mod_pos_bound z (Z.of_nat n)). rewrite Z2Nat.id by lia. rewrite Z.add_mod_idemp_l by lia. reflexivity. Qed.
Lemma cyc_id n k : k < n -> cyc n (Z.of_nat k) = k.
Proof. intros H. unfold cyc. rewrite Z.mod_small by lia. lia. Qed.
Lemma cyc_eq n z z' : 0 < n -> ((z - z') mod Z.of_nat n = 0)%Z -> cyc n z = cyc n z'.
Proof.
  intros H E. apply Z.mod_divide in E as [k E]; [|lia]. replace z with (z' + Z.of_nat n * k)%Z by lia. apply cyc_add. exact H.
Qed.

Lemma pwin_length n a len : List.length (pwin n a len) = len.
Proof. unfold pwin. rewrite map_length, seq_length. reflexivity. Qed.
Lemma pwin_nth n a len i : i < len -> nth i (pwin n a len) 0 = cyc n (Z.of_nat i - Z.of_nat a).
Proof. intros H. unfold pwin. rewrite nth_map_seq by exact H. reflexivity. Qed.
Lemma cw_length l pl pr : pl <= List.length l -> pr <= List.length l -> List.length (cw l pl pr) = List.length l + pl + pr.
Proof. intros H1 H2. unfold cw. rewrite !app_length, skipn_length, firstn_length. lia. Qed.
Lemma nth_skipn' {A} (l : list A) k i d : nth i (skipn k l) d = nth (k + i) l d.
Proof. revert l. induction k as [|k IH]; intros [|a l]; cbn; auto; destruct i; auto. Qed.
Lemma nth_firstn' {A} (l : list A) k i d : i < k -> nth i (firstn k l) d = nth i l d.
Proof. revert l i. induction k as [|k IH]; intros [|a l] [|i] H; cbn; auto; try lia. apply IH. lia. Qed.
Lemma cw_nth l pl pr o : pl <= List.length l -> pr <= List.length l -> o < pl + List.length l + pr ->
  nth o (cw l pl pr) 0 = nth (if Nat.ltb o pl then o + List.length l - pl else if Nat.ltb (o - pl) (List.length l) then o - pl else o - pl - List.length l) l 0.
Proof.
  intros H1 H2 Ho. unfold cw. destruct (Nat.ltb_spec o pl).
  - rewrite app_nth1 by (rewrite skipn_length; lia). rewrite nth_skipn'. f_equal. lia.
  - rewrite app_nth2 by (rewrite skipn_length; lia). rewrite skipn_length. replace (o - (List.length l - (List.length l - pl))) with (o - pl) by lia.
    destruct (Nat.ltb_spec (o - pl) (List.length l)).
    + rewrite app_nth1 by lia. reflexivity.
    + rewrite app_nth2 by lia. rewrite nth_firstn' by lia. reflexivity.
Qed.
Lemma cw_pwin n a len pl pr : 0 < n -> len mod n = 0 -> pl <= len -> pr <= len -> cw (pwin n a len) pl pr = pwin n (a + pl) (len + pl + pr).
Proof.
  intros Hn Hd H1 H2. apply (nth_ext_len _ _ 0); [rewrite cw_length; rewrite !pwin_length; lia|].
  intros o Ho. rewrite cw_length in Ho by (rewrite pwin_length; lia). rewrite pwin_length in Ho.
  rewrite cw_nth by (rewrite pwin_length; lia). rewrite pwin_length.
  assert (Hk : exists k, len = n * k) by (exists (len / n); lia). destruct Hk as [k ->].
  destruct (Nat.ltb_spec o pl).
  - rewrite !pwin_nth by lia. rewrite <- (cyc_add n (Z.of_nat o - Z.of_nat (a + pl)) (Z.of_nat k)) by exact Hn. f_equal. lia.
  - destruct (Nat.ltb_spec (o - pl) (n * k)).
    + rewrite !pwin_nth by lia. f_equal. lia.
    + rewrite !pwin_nth by lia. rewrite <- (cyc_add n (Z.of_nat (o - pl - n * k) - Z.of_nat a) (Z.of_nat k)) by exact Hn. f_equal. lia.
Qed.
Lemma cw_lt n l pl pr : Forall (fun i => i < n) l -> Forall (fun i => i < n) (cw l pl pr).
Proof.
  intros H. rewrite Forall_forall in *. intros i Hi. apply H. unfold cw in Hi. rewrite !in_app_iff in Hi.
  destruct Hi as [Hi|[Hi|Hi]]; [|exact Hi|].
  - rewrite <- (firstn_skipn (List.length l - pl) l). apply in_or_app. now right.
  - rewrite <- (firstn_skipn pr l). apply in_or_app. now left.
Qed.

Lemma rounds_le1 n p : 0 < n -> p <= n -> rounds n p <= 1.
Proof. intros Hn H. unfold rounds. apply Nat.lt_succ_r. apply Nat.div_lt_upper_bound; lia. Qed.
Lemma rounds_pos n p : 0 < n -> 0 < p -> 1 <= rounds n p.
Proof. intros Hn H. unfold rounds. apply Nat.div_le_lower_bound; lia. Qed.
Lemma rounds_sub n p : 0 < n -> rounds n (p - n) = rounds n p - 1.
Proof.
  intros Hn. destruct (Nat.le_gt_cases p n).
  - replace (p - n) with 0 by lia. pose proof (rounds_le1 n p Hn H). unfold rounds at 1. rewrite (Nat.div_small (0 + n - 1)) by lia. lia.
  - unfold rounds. replace (p + n - 1) with (p - n + n - 1 + 1 * n) by lia. rewrite Nat.div_add by lia. lia.
Qed.
Lemma mod_sub n p : 0 < n -> p mod n = 0 -> (p - n) mod n = 0.
Proof.
  intros Hn H. destruct (Nat.le_gt_cases p n); [replace (p - n) with 0 by lia; apply Nat.mod_0_l; lia|].
  rewrite <- (Nat.mod_add (p - n) 1 n) by lia. rewrite <- H. f_equal. lia.
Qed.
Lemma circ_ok_sub n padl padr : 0 < n -> circ_ok n padl padr -> circ_ok n (padl - n) (padr - n).
Proof.
  intros Hn [H1 H2]. split; rewrite !rounds_sub by exact Hn.
  - destruct H1 as [H1|H1]; [left; apply mod_sub; assumption|right; lia].
  - destruct H2 as [H2|H2]; [left; apply mod_sub; assumption|right; lia].
Qed.
(** a round that is not the last one wraps a whole number of periods *)
Lemma circ_ok_full n padl padr : 0 < n -> circ_ok n padl padr -> 0 < padl - n \/ 0 < padr - n ->
  (Nat.min n padl) mod n = 0 /\ (Nat.min n padr) mod n = 0.
Proof.
  intros Hn [H1 H2] Hmore.
  assert (Hbig : forall p, n <= p -> Nat.min n p mod n = 0) by (intros p Hp; rewrite Nat.min_l by lia; apply Nat.mod_same; lia).
  assert (Hr : forall p, 0 < p - n -> 2 <= rounds n p).
  { intros p Hp. pose proof (rounds_sub n p Hn). pose proof (rounds_pos n (p - n) Hn Hp). lia. }
  assert (G : forall p q, 0 < q - n -> (p mod n = 0 \/ rounds n q <= rounds n p) -> Nat.min n p mod n = 0).
  { intros p q Hq H. destruct (Nat.le_gt_cases n p); [apply Hbig; assumption|]. specialize (Hr q Hq). pose proof (rounds_le1 n p Hn).
    destruct H as [H|H]; [|lia]. rewrite Nat.min_r by lia. exact H. }
  destruct Hmore as [Hm|Hm].
  - split; [apply Hbig; lia|]. apply (G padr padl Hm H2).
  - split; [|apply Hbig; lia]. apply (G padl padr Hm H1).
Qed.
Lemma circ_ok_dilated n d h : 0 < n -> 0 < d -> 1 <= h -> n mod d = 0 -> circ_ok n (d * (h - 1)) (d * h).
Proof.
  intros Hn Hd Hh Hm. assert (Hk : exists m, n = d * m) by (exists (n / d); lia). destruct Hk as [m ->].
  assert (Hmp : 0 < m) by nia.
  assert (Hr : forall p, rounds (d * m) (d * p) = (p + m - 1) / m).
  { intros p. unfold rounds. symmetry. apply Nat.div_unique with (r := d * ((p + m - 1) mod m) + (d - 1)).
    - pose proof (Nat.mod_upper_bound (p + m - 1) m ltac:(lia)). nia.
    - pose proof (Nat.div_mod (p + m - 1) m ltac:(lia)). nia. }
  split.
  - rewrite !Hr. destruct (Nat.eq_dec ((h - 1) mod m) 0) as [E|E].
    + left. rewrite Nat.mul_mod_distr_l by lia. rewrite E. apply Nat.mul_0_r.
    + right. replace (h + m - 1) with (h - 1 + 1 * m) by lia. rewrite Nat.div_add by lia.
      assert (Hh1 : h <> 1) by (intros ->; apply E; apply Nat.mod_0_l; lia). replace (h - 1 + m - 1) with ((h - 1) - 1 + 1 * m) by lia. rewrite Nat.div_add by lia.
      assert (Hlt : 0 < (h - 1) mod m) by lia. apply Nat.add_le_mono_r.
      pose proof (Nat.div_mod (h - 1) m ltac:(lia)) as D. pose proof (Nat.mod_upper_bound (h - 1) m ltac:(lia)) as B.
      apply Nat.div_le_lower_bound; [lia|]. lia.
  - right. rewrite !Hr. apply Nat.div_le_mono; lia.
Qed.
Lemma circ_ok_sym n p q : circ_ok n p q -> circ_ok n q p.
Proof. intros [A B]. split; assumption. Qed.
Lemma circ_ok_zero n q : 0 < n -> circ_ok n 0 q.
Proof. intros Hn. split; [left; apply Nat.mod_0_l; lia|right]. unfold rounds. apply Nat.div_le_mono; lia. Qed.

(** the while loop on index lists *)
Fixpoint clist (fuel n : nat) (l : list nat) (padl padr : nat) : list nat :=
  if Nat.ltb 0 padl || Nat.ltb 0 padr then
    match fuel with O => l | S fuel' => clist fuel' n (cw l (Nat.min n padl) (Nat.min n padr)) (padl - n) (padr - n) end
  else l.
Lemma clist_stop fuel n l : clist fuel n l 0 0 = l.
Proof. destruct fuel; reflexivity. Qed.
Lemma clist_length fuel n : 0 < n -> forall l padl padr, n <= List.length l -> padl + padr <= fuel ->
  List.length (clist fuel n l padl padr) = List.length l + padl + padr.
Proof.
  intros Hn. induction fuel as [|fuel IH]; intros l padl padr Hl Hf.
  - assert (padl = 0) as -> by lia. assert (padr = 0) as -> by lia. rewrite clist_stop. lia.
  - cbn [clist]. destruct (Nat.ltb 0 padl || Nat.ltb 0 padr) eqn:E.
    + assert (Hpos : 0 < padl \/ 0 < padr) by (apply orb_true_iff in E as [E|E]; apply Nat.ltb_lt in E; auto).
      rewrite IH; [|rewrite cw_length by lia; lia|lia]. rewrite cw_length by lia. lia.
    + apply orb_false_iff in E as [E1 E2]. apply Nat.ltb_ge in E1, E2. lia.
Qed.
Lemma clist_lt fuel n : forall l padl padr, Forall (fun i => i < n) l -> Forall (fun i => i < n) (clist fuel n l padl padr).
Proof.
  induction fuel as [|fuel IH]; intros l padl padr Hl; cbn [clist]; destruct (Nat.ltb 0 padl || Nat.ltb 0 padr); auto. apply IH, cw_lt, Hl.
Qed.
Lemma clist_pwin fuel n : 0 < n -> forall l padl padr a, n <= List.length l -> padl + padr <= fuel ->
  circ_ok n padl padr -> l = pwin n a (List.length l) -> List.length l mod n = 0 ->
  clist fuel n l padl padr = pwin n (a + padl) (List.length l + padl + padr).
Proof.
  intros Hn. induction fuel as [|fuel IH]; intros l padl padr a Hl Hf Hok Hw Hm.
  - assert (padl = 0) as -> by lia. assert (padr = 0) as -> by lia. cbn [clist]. change (Nat.ltb 0 0) with false. cbn [orb]. rewrite Hw at 1. f_equal; lia.
  - cbn [clist]. destruct (Nat.ltb 0 padl || Nat.ltb 0 padr) eqn:E.
    + assert (Hcw : cw l (Nat.min n padl) (Nat.min n padr) = pwin n (a + Nat.min n padl) (List.length l + Nat.min n padl + Nat.min n padr)).
      { rewrite Hw at 1. apply cw_pwin; auto; lia. }
      destruct (Nat.eq_dec (padl - n + (padr - n)) 0) as [Ez|Ez].
      * replace (padl - n) with 0 by lia. replace (padr - n) with 0 by lia. rewrite clist_stop, Hcw. f_equal; lia.
      * rewrite (IH _ _ _ (a + Nat.min n padl)); rewrite ?cw_length by lia; try lia.
        -- f_equal; lia.
        -- apply circ_ok_sub; assumption.
        -- exact Hcw.
        -- destruct (circ_ok_full n padl padr Hn Hok) as [F1 F2]; [lia|].
           rewrite Nat.add_mod, (Nat.add_mod (List.length l)), Hm, F1, F2 by lia. cbn. rewrite !Nat.mod_0_l by lia. reflexivity.
    + apply orb_false_iff in E as [E1 E2]. apply Nat.ltb_ge in E1, E2. rewrite Hw at 1. f_equal; lia.
Qed.

Section SF.
Context {K : CRing}.
Add Ring Kring : (cr_th K).
Implicit Types t u x y : tensor K.
Implicit Types f lo hi : list K.
Implicit Types w : wavelet K.

(** * Circular padding of tensors [b; c; n] *)
Definition sel2 (x : tensor K) (l : list nat) : tensor K :=
  tmake (ttag x) [nth 0 (shp x) 0; nth 1 (shp x) 0; List.length l] (fun idx => get x [nth 0 idx 0; nth 1 idx 0; nth (nth 2 idx 0) l 0]).
Lemma sel2_id x b c n : wf x -> shp x = [b; c; n] -> sel2 x (seq 0 n) = x.
Proof.
  intros Hw Hs. rewrite <- (make_get x Hw) at 2. unfold sel2. rewrite Hs. cbn [nth]. rewrite seq_length. apply make_ext.
  intros idx Hv. destruct idx as [|i [|j [|k [|]]]]; try (apply valid_length in Hv; discriminate). cbn [nth].
  pose proof (valid_nth _ _ 2 Hv ltac:(cbn; lia)) as Hk. cbn [nth] in Hk. rewrite nth_seq0 by exact Hk. reflexivity.
Qed.
Lemma fpad_sel2 x l pl pr : pl <= List.length l -> pr <= List.length l ->
  fpad (sel2 x l) [(pl, pr)] PCircular = Ok (sel2 x (cw l pl pr)).
Proof.
  intros H1 H2. unfold fpad. change (rank (sel2 x l)) with 3. cbn [List.length Nat.ltb Nat.leb Nat.sub Nat.eqb Nat.add orb andb negb].
  change (Nat.ltb 3 1) with false. cbn iota. change (shp (sel2 x l)) with [nth 0 (shp x) 0; nth 1 (shp x) 0; List.length l].
  cbn [skipn firstn map2 forallb pad_ok fst snd andb]. rewrite (proj2 (Nat.leb_le _ _) H1), (proj2 (Nat.leb_le _ _) H2). cbn [andb negb].
  f_equal. unfold sel2 at 3. rewrite cw_length by assumption. cbn [app]. replace (pl + List.length l + pr) with (List.length l + pl + pr) by lia.
  change (ttag (sel2 x l)) with (ttag x). apply make_ext. intros idx Hv.
  destruct idx as [|i [|j [|o [|]]]]; try (apply valid_length in Hv; discriminate).
  apply valid_cons_inv in Hv as [Hi Hv]. apply valid_cons_inv in Hv as [Hj Hv]. apply valid_cons_inv in Hv as [Ho _].
  cbn [skipn pad_srcs pad_src fst snd nth firstn app].
  rewrite cw_nth by lia. 
  destruct (Nat.ltb_spec o pl); [|destruct (Nat.ltb_spec (o - pl) (List.length l))]; cbn [app]; unfold sel2; rewrite get_make; try reflexivity;
    repeat (constructor; [assumption|]); constructor; try constructor; lia.
Qed.

Lemma circ_loop_ok fuel n x : 0 < n -> forall l padl padr, n <= List.length l -> padl + padr <= fuel ->
  circ_loop fuel n (sel2 x l) padl padr = Ok (sel2 x (clist fuel n l padl padr)).
Proof.
  intros Hn. induction fuel as [|fuel IH]; intros l padl padr Hl Hf.
  - assert (padl = 0) as -> by lia. assert (padr = 0) as -> by lia. reflexivity.
  - cbn [circ_loop clist]. destruct (Nat.ltb 0 padl || Nat.ltb 0 padr) eqn:E; [|reflexivity].
    rewrite fpad_sel2 by lia. cbn [rbind]. apply IH.
    + rewrite cw_length by lia. lia.
    + apply orb_true_iff in E as [E|E]; apply Nat.ltb_lt in E; lia.
Qed.

(** the padded index list of an axis of length n *)
Definition circ_list (n padl padr : nat) : list nat := clist (padl + padr) n (seq 0 n) padl padr.
Lemma seq_pwin n : seq 0 n = pwin n 0 n.
Proof.
  apply (nth_ext_len _ _ 0); [rewrite seq_length, pwin_length; reflexivity|]. rewrite seq_length. intros i Hi. rewrite nth_seq0 by exact Hi. rewrite pwin_nth by exact Hi.
  rewrite Z.sub_0_r. symmetry. apply cyc_id. exact Hi.
Qed.
Lemma circ_list_ok n padl padr : 0 < n -> List.length (circ_list n padl padr) = n + padl + padr /\ Forall (fun i => i < n) (circ_list n padl padr) /\
  (circ_ok n padl padr -> circ_list n padl padr = pwin n padl (n + padl + padr)).
Proof.
  intros Hn. unfold circ_list. split; [|split].
  - rewrite clist_length; rewrite ?seq_length; auto.
  - apply clist_lt. apply Forall_forall. intros i Hi. apply in_seq in Hi. lia.
  - intros Hok. rewrite (clist_pwin _ n Hn _ _ _ 0); auto; rewrite ?seq_length; auto.
    + apply seq_pwin.
    + apply Nat.mod_same. lia.
Qed.
Lemma circular_pad_ok x b c n padl padr : wf x -> shp x = [b; c; n] -> 0 < n ->
  circular_pad x padl padr = Ok (sel2 x (circ_list n padl padr)).
Proof.
  intros Hw Hs Hn. unfold circular_pad. assert (Hd : dim_last x 1 = n) by (unfold dim_last, rank; rewrite Hs; reflexivity). rewrite Hd.
  assert (Hx := sel2_id x b c n Hw Hs).
  destruct (Nat.ltb n padl || Nat.ltb n padr) eqn:Eb; cbn [negb].
  - rewrite <- Hx at 1. rewrite circ_loop_ok; auto. rewrite seq_length. lia.
  - apply orb_false_iff in Eb as [E1 E2]. apply Nat.ltb_ge in E1, E2. rewrite <- Hx at 1. rewrite fpad_sel2 by (rewrite seq_length; lia). do 2 f_equal.
    unfold circ_list. destruct (padl + padr) as [|k] eqn:Ek; cbn [clist].
    + assert (padl = 0) as -> by lia. assert (padr = 0) as -> by lia. unfold cw. rewrite Nat.sub_0_r, skipn_all. cbn. rewrite app_nil_r. reflexivity.
    + replace (Nat.ltb 0 padl || Nat.ltb 0 padr) with true by (symmetry; apply orb_true_iff; rewrite !Nat.ltb_lt; lia).
      rewrite !Nat.min_r by lia. replace (padl - n) with 0 by lia. replace (padr - n) with 0 by lia. rewrite clist_stop. reflexivity.
Qed.
End SF.
