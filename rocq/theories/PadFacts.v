(** Padding: the model's padding functions compute windows of the specified extensions. *)
From Coq Require Import List Arith ZArith Lia Bool String Permutation.
From Coq Require Import ZifyNat ZifyBool.
From Verif Require Import Base Sums Tensor TensorFacts Util Perm Plumb Spec Conv1.
Import ListNotations.
Ltac Zify.zify_post_hook ::= Z.div_mod_to_equations.

(** * symmetric index *)
Definition symz (n : nat) (z : Z) : Z :=
  let N := Z.of_nat n in let r := (z mod (2 * N))%Z in
  if (r <? N)%Z then r else (2 * N - 1 - r)%Z.

Lemma symz_range n z : 0 < n -> (0 <= symz n z < Z.of_nat n)%Z.
Proof.
  intros H. unfold symz. pose proof (Z.mod_pos_bound z (2 * Z.of_nat n) ltac:(lia)) as Hb.
  destruct (Z.ltb_spec (z mod (2 * Z.of_nat n)) (Z.of_nat n)); lia.
Qed.

Lemma symz_period n z k : 0 < n -> symz n (z + 2 * Z.of_nat n * k) = symz n z.
Proof.
  intros H. unfold symz. rewrite (Z.mul_comm (2 * Z.of_nat n) k), Z.mod_add by lia. reflexivity.
Qed.

Lemma symz_refl n z : 0 < n -> symz n (-1 - z) = symz n z.
Proof.
  intros H. unfold symz. set (M := (2 * Z.of_nat n)%Z).
  assert (E : ((-1 - z) mod M = M - 1 - z mod M)%Z).
  { symmetry. apply (Z.mod_unique_pos _ _ (- (z / M) - 1)).
    - pose proof (Z.mod_pos_bound z M ltac:(lia)). lia.
    - pose proof (Z.div_mod z M ltac:(lia)). nia. }
  rewrite E. pose proof (Z.mod_pos_bound z M ltac:(lia)) as Hb. unfold M in *.
  destruct (Z.ltb_spec (2 * Z.of_nat n - 1 - z mod (2 * Z.of_nat n)) (Z.of_nat n)),
           (Z.ltb_spec (z mod (2 * Z.of_nat n)) (Z.of_nat n)); lia.
Qed.

Lemma symz_id n z : (0 <= z < Z.of_nat n)%Z -> symz n z = z.
Proof.
  intros H. unfold symz. rewrite Z.mod_small by lia. destruct (Z.ltb_spec z (Z.of_nat n)); lia.
Qed.

Lemma symz_left n z : (- Z.of_nat n <= z < 0)%Z -> symz n z = (- 1 - z)%Z.
Proof. intros H. rewrite <- symz_refl by lia. apply symz_id. lia. Qed.

Lemma symz_right n z : (Z.of_nat n <= z < 2 * Z.of_nat n)%Z -> symz n z = (2 * Z.of_nat n - 1 - z)%Z.
Proof.
  intros H. rewrite <- symz_refl by lia. rewrite <- (symz_period n _ 1) by lia.
  rewrite symz_id; lia.
Qed.

(** composition: extending an already (block-wise) extended signal *)
Lemma symz_comp n c sh z : 0 < n -> 0 < c -> sh = 0 \/ sh = n ->
  symz n (symz (c * n) z - Z.of_nat sh) = symz n (z - Z.of_nat sh).
Proof.
  intros Hn Hc Hsh. set (M := (2 * Z.of_nat (c * n))%Z).
  pose proof (Z.div_mod z M ltac:(lia)) as Hd. set (q := (z / M)%Z) in *.
  assert (HM : (M = 2 * Z.of_nat n * Z.of_nat c)%Z) by (unfold M; lia).
  unfold symz at 2. fold M. destruct (Z.ltb_spec (z mod M) (Z.of_nat (c * n))).
  - rewrite <- (symz_period n (z mod M - Z.of_nat sh) (Z.of_nat c * q)) by lia.
    f_equal. rewrite Z.mul_assoc, <- HM. lia.
  - rewrite <- symz_refl by lia.
    rewrite <- (symz_period n (z - Z.of_nat sh) (if Nat.eqb sh 0 then 0 else 1) Hn).
    rewrite <- (symz_period n (-1 - (M - 1 - z mod M - Z.of_nat sh)) (Z.of_nat c * (q + 1)) Hn).
    f_equal. fold M. rewrite Z.mul_assoc, <- HM. destruct Hsh as [->| ->].
    + cbn [Nat.eqb]. lia.
    + destruct (Nat.eqb_spec n 0); lia.
Qed.

(** * list version of _pad_symmetric_1d *)
Section L.
Context {A : Type}.
Fixpoint psl (fuel : nat) (l : list A) (padl padr : nat) : result (list A) :=
  match fuel with
  | O => Raise RecursionError
  | S fuel' =>
    let n := List.length l in
    if Nat.ltb n padl || Nat.ltb n padr then
      let* sp := (if Nat.ltb n padl
                  then let* s := psl fuel' l n 0 in Ok (s, padl - n) else Ok (l, padl)) in
      let '(l1, padl1) := sp in
      let* sp2 := (if Nat.ltb n padr
                   then let* s := psl fuel' l1 0 n in Ok (s, padr - n) else Ok (l1, padr)) in
      let '(l2, padr1) := sp2 in
      psl fuel' l2 padl1 padr1
    else Ok ((if Nat.ltb 0 padl then rev (firstn padl l) else []) ++ l
             ++ (if Nat.ltb 0 padr then rev (skipn (n - padr) l) else []))
  end.

Definition sym_window (l : list A) (padl padr : nat) (r : list A) : Prop :=
  List.length r = padl + List.length l + padr /\
  forall o d, o < List.length r ->
    nth o r d = nth (Z.to_nat (symz (List.length l) (Z.of_nat o - Z.of_nat padl))) l d.

Lemma psl_base fuel l padl padr : padl <= List.length l -> padr <= List.length l -> 0 < List.length l ->
  exists r, psl (S fuel) l padl padr = Ok r /\ sym_window l padl padr r.
Proof.
  intros Hl Hr Hn. cbn [psl].
  destruct (Nat.ltb_spec (List.length l) padl); [lia|].
  destruct (Nat.ltb_spec (List.length l) padr); [lia|]. cbn [orb].
  eexists. split; [reflexivity|].
  replace (if 0 <? padl then rev (firstn padl l) else []) with (rev (firstn padl l))
    by (destruct padl; reflexivity).
  replace (if 0 <? padr then rev (skipn (List.length l - padr) l) else []) with (rev (skipn (List.length l - padr) l))
    by (destruct padr; [rewrite Nat.sub_0_r, skipn_all|]; reflexivity).
  set (n := List.length l) in *.
  assert (L1 : List.length (rev (firstn padl l)) = padl) by (rewrite rev_length, firstn_length; fold n; lia).
  assert (L3 : List.length (rev (skipn (n - padr) l)) = padr) by (rewrite rev_length, skipn_length; fold n; lia).
  split.
  - rewrite !app_length, L1, L3. fold n. lia.
  - intros o d Ho. rewrite !app_length, L1, L3 in Ho. fold n in Ho.
    destruct (Nat.ltb_spec o padl) as [H1|H1].
    + rewrite app_nth1 by lia. rewrite symz_left by lia.
      rewrite rev_nth by (rewrite firstn_length; fold n; lia). rewrite firstn_length. fold n.
      replace (Nat.min padl n - S o) with (padl - S o) by lia.
      replace (Z.to_nat (- 1 - (Z.of_nat o - Z.of_nat padl))) with (padl - S o) by lia.
      rewrite <- (firstn_skipn padl l) at 2. rewrite app_nth1; [reflexivity|rewrite firstn_length; fold n; lia].
    + rewrite app_nth2 by lia. rewrite L1. destruct (Nat.ltb_spec (o - padl) n) as [H2|H2].
      * rewrite app_nth1 by (fold n; lia). rewrite symz_id by lia. f_equal. lia.
      * rewrite app_nth2 by (fold n; lia). fold n. rewrite symz_right by lia.
        rewrite rev_nth by (rewrite skipn_length; fold n; lia). rewrite skipn_length. fold n.
        rewrite <- (firstn_skipn (n - padr) l) at 2.
        rewrite app_nth2 by (rewrite firstn_length; fold n; lia). f_equal.
        rewrite firstn_length. fold n. lia.
Qed.

Lemma psl_ok fuel l padl padr : 0 < List.length l -> padl + padr + 1 < fuel ->
  exists r, psl fuel l padl padr = Ok r /\ sym_window l padl padr r.
Proof.
  revert l padl padr. induction fuel as [|fuel IH]; intros l padl padr Hn Hf; [lia|].
  destruct (Nat.ltb (List.length l) padl || Nat.ltb (List.length l) padr) eqn:E.
  2:{ apply orb_false_iff in E as [E1 E2]. apply Nat.ltb_ge in E1, E2. apply psl_base; assumption. }
  cbn [psl]. rewrite E. set (n := List.length l) in *.
  assert (Hfuel : exists f', fuel = S f') by (exists (fuel - 1); apply orb_true_iff in E; destruct E as [E|E]; apply Nat.ltb_lt in E; lia).
  destruct Hfuel as [f' ->].
  (* left *)
  assert (H1 : exists l1 shl padl1,
     (if Nat.ltb n padl then let* s := psl (S f') l n 0 in Ok (s, padl - n) else Ok (l, padl)) = Ok (l1, padl1)
     /\ sym_window l shl 0 l1 /\ padl = padl1 + shl /\ ((shl = n /\ n < padl) \/ (shl = 0 /\ padl <= n))).
  { destruct (Nat.ltb_spec n padl).
    - destruct (psl_base f' l n 0) as (r & Hr & Hw); fold n; try lia.
      rewrite Hr. cbn [rbind]. exists r, n, (padl - n). repeat split; try lia; apply Hw.
    - exists l, 0, padl. repeat split; try lia.
      intros o d Ho. rewrite symz_id by lia. f_equal. lia. }
  destruct H1 as (l1 & shl & padl1 & H1 & [W1 W1'] & Hpl & Hshl). rewrite H1. cbn [rbind].
  assert (H2 : exists l2 shr padr1,
     (if Nat.ltb n padr then let* s := psl (S f') l1 0 n in Ok (s, padr - n) else Ok (l1, padr)) = Ok (l2, padr1)
     /\ sym_window l1 0 shr l2 /\ padr = padr1 + shr /\ ((shr = n /\ n < padr) \/ (shr = 0 /\ padr <= n))).
  { destruct (Nat.ltb_spec n padr).
    - destruct (psl_base f' l1 0 n) as (r & Hr & Hw); try (fold n in W1; lia).
      rewrite Hr. cbn [rbind]. exists r, n, (padr - n). repeat split; try lia; apply Hw.
    - exists l1, 0, padr. repeat split; try lia.
      intros o d Ho. rewrite symz_id by lia. f_equal. lia. }
  destruct H2 as (l2 & shr & padr1 & H2 & [W2 W2'] & Hpr & Hshr). rewrite H2. cbn [rbind].
  fold n in W1, W1'.
  assert (Hdec : (shl = n \/ shr = n)).
  { apply orb_true_iff in E. destruct E as [E|E]; apply Nat.ltb_lt in E; lia. }
  destruct (IH l2 padl1 padr1) as (r & Hr & [W3 W3']); [lia|lia|].
  exists r. split; [exact Hr|]. split; [fold n; lia|].
  intros o d Ho. rewrite W3' by exact Ho. fold n.
  (* l2 is the window of l with left shift shl *)
  assert (HW : forall i, i < List.length l2 -> nth i l2 d = nth (Z.to_nat (symz n (Z.of_nat i - Z.of_nat shl))) l d).
  { intros i Hi. rewrite W2' by exact Hi.
    pose proof (symz_range (List.length l1) (Z.of_nat i - Z.of_nat 0) ltac:(lia)) as Hrg.
    rewrite W1' by lia. rewrite Z2Nat.id by lia. rewrite Z.sub_0_r.
    assert (Hc : exists c, List.length l1 = c * n /\ 0 < c).
    { destruct Hshl as [[-> _]|[-> _]]; [exists 2|exists 1]; lia. }
    destruct Hc as (c & -> & Hc). rewrite symz_comp by lia. reflexivity. }
  pose proof (symz_range (List.length l2) (Z.of_nat o - Z.of_nat padl1) ltac:(lia)) as Hrg.
  rewrite HW by lia. rewrite Z2Nat.id by lia.
  assert (Hc : exists c, List.length l2 = c * n /\ 0 < c).
  { destruct Hshl as [[-> _]|[-> _]], Hshr as [[-> _]|[-> _]]; [exists 3|exists 2|exists 2|exists 1]; lia. }
  destruct Hc as (c & -> & Hc). rewrite symz_comp by lia. do 3 f_equal. lia.
Qed.

(** on an empty axis any nonempty padding diverges *)
Lemma psl_empty fuel padl padr : 0 < padl \/ 0 < padr -> psl fuel (@nil A) padl padr = Raise RecursionError.
Proof.
  revert padl padr. induction fuel as [|fuel IH]; intros padl padr H; [reflexivity|].
  cbn [psl List.length].
  assert (E : forall p, 0 < p -> Nat.ltb 0 p = true) by (intros p Hp; apply Nat.ltb_lt; exact Hp).
  destruct fuel as [|fuel].
  - destruct padl as [|padl]; cbn; [destruct padr as [|padr]; [lia|reflexivity]|]. reflexivity.
  - assert (B : psl (S fuel) (@nil A) 0 0 = Ok []) by reflexivity.
    destruct padl as [|padl].
    + destruct padr as [|padr]; [lia|]. cbn [Nat.ltb Nat.leb orb rbind]. rewrite B. cbn [rbind].
      rewrite Nat.sub_0_r. apply IH. lia.
    + cbn [Nat.ltb Nat.leb orb rbind]. rewrite B. cbn [rbind]. rewrite Nat.sub_0_r.
      destruct padr as [|padr]; cbn [rbind]; rewrite ?B; cbn [rbind]; rewrite ?Nat.sub_0_r; apply IH; lia.
Qed.
End L.

(** * tensor version along axis 0 *)
Section T.
Context {K : CRing}.
Implicit Types t u : tensor K.

(** rows of x selected by an index list along axis 0 *)
Definition sel0 (x : tensor K) (l : list nat) : tensor K :=
  tmake (ttag x) (List.length l :: tl (shp x))
    (fun idx => get x (nth (hd 0 idx) l 0 :: tl idx)).

Lemma sel0_id x : wf x -> 0 < rank x -> sel0 x (seq 0 (hd 0 (shp x))) = x.
Proof.
  intros Hw Hr. unfold rank in Hr. apply t_ext; auto; [apply wf_make| |].
  - cbn. rewrite seq_length. destruct (shp x); cbn in *; [lia|reflexivity].
  - intros idx Hv. unfold sel0 in *. rewrite shp_make in Hv. rewrite get_make by exact Hv.
    rewrite seq_length in Hv. inversion Hv as [|i n is ns Hi Hvs]; subst. cbn [hd tl].
    rewrite nth_seq0 by exact Hi. reflexivity.
Qed.

Lemma nth_firstn_skipn {B} (l : list B) a n i d : i < n -> nth i (firstn n (skipn a l)) d = nth (a + i) l d.
Proof.
  revert l i n. induction a as [|a IH]; intros l i n Hi.
  - cbn [skipn Nat.add]. revert i n Hi. induction l as [|b l IHl]; intros i n Hi.
    + rewrite firstn_nil. reflexivity.
    + destruct n; [lia|]. destruct i; cbn; [reflexivity|]. apply IHl. lia.
  - destruct l as [|b l]; cbn [skipn]; [rewrite firstn_nil; destruct i; reflexivity|].
    rewrite IH by exact Hi. reflexivity.
Qed.

Lemma narrow0_sel x l a n : a + n <= List.length l -> narrow (sel0 x l) 0 a n = sel0 x (firstn n (skipn a l)).
Proof.
  intros H. assert (Hl : List.length (firstn n (skipn a l)) = n) by (rewrite firstn_length, skipn_length; lia).
  apply t_ext; try apply wf_make; [reflexivity| |].
  - cbn. rewrite Hl. reflexivity.
  - intros idx Hv. unfold narrow in *. rewrite shp_make in Hv. rewrite get_make by exact Hv.
    cbn in Hv. inversion Hv as [|i m is ms Hi Hvs]; subst. cbn [nth updn].
    unfold sel0. rewrite !get_make.
    + cbn [hd tl]. rewrite nth_firstn_skipn by exact Hi. rewrite (Nat.add_comm i a). reflexivity.
    + rewrite Hl. constructor; assumption.
    + constructor; [lia|assumption].
Qed.

Lemma flip0_sel x l : flip (sel0 x l) 0 = sel0 x (rev l).
Proof.
  apply t_ext; try apply wf_make; [reflexivity| |].
  - cbn. rewrite rev_length. reflexivity.
  - intros idx Hv. unfold flip in *. rewrite shp_make in Hv. rewrite get_make by exact Hv.
    cbn in Hv. inversion Hv as [|i m is ms Hi Hvs]; subst. cbn [nth updn].
    unfold sel0. rewrite !get_make.
    + cbn [hd tl shp tmake nth]. rewrite rev_nth by exact Hi. do 3 f_equal. lia.
    + rewrite rev_length. constructor; assumption.
    + cbn. constructor; [lia|assumption].
Qed.

Lemma cat2_sel x l l' : cat2 0 (sel0 x l) (sel0 x l') = Ok (sel0 x (l ++ l')).
Proof.
  unfold cat2. cbn [rank shp sel0 tmake List.length updn nth].
  rewrite Nat.eqb_refl, list_eqb_refl.
  change (0 <? S (List.length (tl (shp x)))) with true. cbn [andb].
  f_equal. apply t_ext; try apply wf_make; [reflexivity| |].
  - cbn. rewrite app_length. reflexivity.
  - intros idx Hv. rewrite shp_make in Hv. rewrite get_make by exact Hv.
    inversion Hv as [|i m is ms Hi Hvs]; subst. cbn [nth updn].
    unfold sel0 at 3. rewrite get_make by (rewrite app_length; constructor; assumption). cbn [hd tl].
    destruct (Nat.ltb_spec i (List.length l)).
    + unfold sel0. rewrite get_make by (constructor; assumption). cbn [hd tl]. rewrite app_nth1 by assumption. reflexivity.
    + unfold sel0. rewrite get_make by (constructor; [lia|assumption]). cbn [hd tl]. rewrite app_nth2 by assumption. reflexivity.
Qed.

Lemma pad_sym_sel fuel x l padl padr :
  pad_symmetric_1d fuel (sel0 x l) padl padr =
  match psl fuel l padl padr with Ok r => Ok (sel0 x r) | Raise e => Raise e end.
Proof.
  revert l padl padr. induction fuel as [|fuel IH]; intros l padl padr; [reflexivity|].
  cbn [pad_symmetric_1d psl]. cbn [sel0 shp tmake nth]. fold (sel0 x l). set (n := List.length l).
  destruct (Nat.ltb n padl || Nat.ltb n padr) eqn:E.
  - destruct (Nat.ltb n padl).
    + rewrite IH. destruct (psl fuel l n 0) as [l1|e]; [|reflexivity]. cbn [rbind].
      destruct (Nat.ltb n padr).
      * rewrite IH. destruct (psl fuel l1 0 n) as [l2|e]; [|reflexivity]. cbn [rbind]. apply IH.
      * cbn [rbind]. apply IH.
    + cbn [rbind]. destruct (Nat.ltb n padr).
      * rewrite IH. destruct (psl fuel l 0 n) as [l2|e]; [|reflexivity]. cbn [rbind]. apply IH.
      * cbn [rbind]. apply IH.
  - apply orb_false_iff in E as [E1 E2]. apply Nat.ltb_ge in E1, E2.
    assert (Hleft : flip (narrow (sel0 x l) 0 0 padl) 0 = sel0 x (rev (firstn padl l))).
    { rewrite narrow0_sel by (fold n; lia). apply flip0_sel. }
    assert (Hright : flip (narrow (sel0 x l) 0 (n - padr) padr) 0 = sel0 x (rev (skipn (n - padr) l))).
    { rewrite narrow0_sel by (fold n; lia). rewrite flip0_sel. do 2 f_equal.
      apply firstn_all2. rewrite skipn_length. fold n. lia. }
    rewrite Hleft, Hright. destruct (Nat.ltb 0 padl), (Nat.ltb 0 padr); cbn [app cat cat_from];
      rewrite ?cat2_sel; cbn [rbind]; rewrite ?cat2_sel; cbn [rbind]; rewrite ?cat2_sel; cbn [rbind];
      rewrite ?app_nil_r, <- ?app_assoc; reflexivity.
Qed.

(** index-map along an arbitrary axis *)
Definition remap (d : nat) (n' : nat) (f : nat -> nat) t : tensor K :=
  tmake (ttag t) (updn d n' (shp t)) (fun idx => get t (updn d (f (nth d idx 0)) idx)).

Lemma swapn_invol a b d : swapn a b (swapn a b d) = d.
Proof.
  unfold swapn. destruct (Nat.eqb_spec d a) as [->|].
  - destruct (Nat.eqb_spec b a) as [->|]; [reflexivity|]. rewrite Nat.eqb_refl. reflexivity.
  - destruct (Nat.eqb_spec d b) as [->|]; [rewrite Nat.eqb_refl; reflexivity|].
    destruct (Nat.eqb_spec d a); [lia|]. destruct (Nat.eqb_spec d b); [lia|reflexivity].
Qed.

Lemma swapn_lt a b d r : a < r -> b < r -> d < r -> swapn a b d < r.
Proof. intros. unfold swapn. destruct (Nat.eqb d a); [assumption|]. destruct (Nat.eqb d b); assumption. Qed.

Lemma swap_perm a b r : a < r -> b < r -> is_perm (map (swapn a b) (seq 0 r)) r.
Proof.
  intros Ha Hb. unfold is_perm. apply NoDup_Permutation.
  - apply FinFun.Injective_map_NoDup; [|apply seq_NoDup].
    intros x y H. rewrite <- (swapn_invol a b x), <- (swapn_invol a b y), H. reflexivity.
  - apply seq_NoDup.
  - intros x. rewrite in_map_iff, in_seq. split.
    + intros (y & <- & Hy). apply in_seq in Hy. pose proof (swapn_lt a b y r Ha Hb). lia.
    + intros Hx. exists (swapn a b x). split; [apply swapn_invol|]. apply in_seq.
      pose proof (swapn_lt a b x r Ha Hb). lia.
Qed.

Lemma gather_swap_updn a b r (l : list nat) v def : a < r -> b < r -> List.length l = r ->
  gather (map (swapn a b) (seq 0 r)) def (updn a v l) = updn b v (gather (map (swapn a b) (seq 0 r)) def l).
Proof.
  intros Ha Hb Hl. apply (nth_ext_len _ _ def).
  - rewrite updn_length, !gather_length. reflexivity.
  - intros i Hi. rewrite gather_length, map_length, seq_length in Hi.
    assert (Hgl : List.length (gather (map (swapn a b) (seq 0 r)) def l) = r)
      by (rewrite gather_length, map_length, seq_length; reflexivity).
    rewrite nth_updn, Hgl. unfold gather. rewrite !map_map. rewrite !nth_map_seq by exact Hi.
    rewrite nth_updn, Hl. destruct (Nat.ltb_spec b r); [|lia]. destruct (Nat.ltb_spec a r); [|lia].
    rewrite !andb_true_r. unfold swapn.
    destruct (Nat.eqb_spec i a) as [Eia|Nia].
    + destruct (Nat.eqb_spec b a), (Nat.eqb_spec i b); try lia; reflexivity.
    + destruct (Nat.eqb_spec i b) as [Eib|Nib].
      * rewrite Nat.eqb_refl. reflexivity.
      * destruct (Nat.eqb_spec i a); [lia|reflexivity].
Qed.

Lemma unperm_swap a b r idx : a < r -> b < r -> List.length idx = r ->
  unperm (map (swapn a b) (seq 0 r)) idx = gather (map (swapn a b) (seq 0 r)) 0 idx.
Proof.
  intros Ha Hb Hl. pose proof (swap_perm a b r Ha Hb) as Hp.
  assert (E : idx = gather (map (swapn a b) (seq 0 r)) 0 (gather (map (swapn a b) (seq 0 r)) 0 idx)).
  { apply (nth_ext_len _ _ 0); [rewrite gather_length, map_length, seq_length; lia|].
    intros i Hi. rewrite Hl in Hi. unfold gather. rewrite !map_map.
    rewrite nth_map_seq by exact Hi. rewrite nth_map_seq by (apply swapn_lt; assumption).
    rewrite swapn_invol. reflexivity. }
  rewrite E at 1. apply (unperm_gather _ r _ Hp). rewrite gather_length, map_length, seq_length. reflexivity.
Qed.

(** transpose - act on axis 0 - transpose back *)
Lemma transpose_remap t d l : wf t -> d < rank t -> 
  (forall i, i < List.length l -> nth i l 0 < nth d (shp t) 0) ->
  transpose (sel0 (transpose t 0 d) l) d 0 = remap d (List.length l) (fun o => nth o l 0) t.
Proof.
  intros Hw Hd Hl. set (r := rank t).
  assert (H0 : 0 < r) by lia.
  set (p := map (swapn 0 d) (seq 0 r)).
  assert (Hp' : map (swapn d 0) (seq 0 r) = p).
  { unfold p. apply map_ext. intros x. unfold swapn. destruct (Nat.eqb_spec x d), (Nat.eqb_spec x 0); lia. }
  assert (Hpp : is_perm p r) by (apply swap_perm; lia).
  assert (Hgl : forall (x : list nat), List.length (gather p 0 x) = r)
    by (intros x; unfold p; rewrite gather_length, map_length, seq_length; reflexivity).
  assert (Hp0 : forall x : list nat, List.length x = r -> nth 0 (gather p 0 x) 0 = nth d x 0).
  { intros x Hx. unfold gather, p. rewrite map_map. rewrite nth_map_seq by lia. unfold swapn. reflexivity. }
  assert (Hinv : forall x : list nat, List.length x = r -> gather p 0 (gather p 0 x) = x).
  { intros x Hx. transitivity (unperm p (gather p 0 x)); [symmetry; apply unperm_swap; auto|apply (unperm_gather p r); auto]. }
  assert (Hg0 : forall (x : list nat) v, List.length x = r -> updn 0 v (gather p 0 x) = gather p 0 (updn d v x)).
  { intros x v Hx. rewrite <- Hp'. symmetry. apply gather_swap_updn; auto. }
  assert (Hup : forall (x : list nat) v, 0 < List.length x -> v :: tl x = updn 0 v x)
    by (intros [|? ?] v Hx; cbn in *; [lia|reflexivity]).
  assert (Hs : List.length l :: tl (gather p 0 (shp t)) = gather p 0 (updn d (List.length l) (shp t))).
  { rewrite Hup by (rewrite Hgl; lia). apply Hg0. reflexivity. }
    assert (Hsh : shp (sel0 (transpose t 0 d) l) = gather p 0 (updn d (List.length l) (shp t))).
    { unfold sel0. rewrite shp_make. unfold transpose, permute_nat. rewrite shp_make. fold r p. exact Hs. }
    assert (Hrk : rank (sel0 (transpose t 0 d) l) = r) by (unfold rank; rewrite Hsh; apply Hgl).
  apply t_ext; try apply wf_make.
  - reflexivity.
  - unfold transpose at 1. unfold permute_nat at 1. rewrite shp_make, Hrk, Hp', Hsh.
    rewrite Hinv by (rewrite updn_length; reflexivity). reflexivity.
  - intros idx Hv. unfold transpose at 1 in Hv. unfold permute_nat in Hv. rewrite shp_make in Hv.
    rewrite Hrk, Hp', Hsh in Hv. rewrite Hinv in Hv by (rewrite updn_length; reflexivity).
    pose proof (valid_length _ _ Hv) as Hli. rewrite updn_length in Hli. fold r in Hli.
    unfold remap. rewrite get_make by exact Hv.
    unfold transpose at 1. rewrite Hrk, Hp'. rewrite get_permute'.
    2:{ rewrite Hrk. exact Hpp. }
    2:{ rewrite Hsh. rewrite Hinv by (rewrite updn_length; reflexivity). exact Hv. }
    fold p in Hp'. unfold p at 1. rewrite unperm_swap by auto. fold p.
    assert (Hvg : valid (gather p 0 idx) (gather p 0 (updn d (List.length l) (shp t)))).
    { apply (valid_gather p r); auto. rewrite updn_length. reflexivity. }
    unfold sel0. rewrite get_make.
    2:{ unfold transpose, permute_nat. rewrite shp_make. fold r p. rewrite Hs. exact Hvg. }
    assert (Hhd : hd 0 (gather p 0 idx) = nth d idx 0).
    { rewrite <- (Hp0 idx) by exact Hli. destruct (gather p 0 idx); reflexivity. }
    rewrite Hhd.
    assert (Hdl : nth d idx 0 < List.length l).
    { pose proof (valid_nth _ _ d Hv) as H1. rewrite updn_length in H1. specialize (H1 Hd).
      rewrite nth_updn_eq in H1 by exact Hd. exact H1. }
    rewrite Hup by (rewrite Hgl; lia). rewrite Hg0 by exact Hli.
    unfold transpose. fold r p.
    assert (Hvu : valid (updn d (nth (nth d idx 0) l 0) idx) (shp t)).
    { rewrite <- (updn_same d (shp t) 0). rewrite <- (updn_updn d (nth d (shp t) 0) (List.length l) (shp t)).
      rewrite <- (updn_updn d _ (nth d idx 0) idx). apply valid_updn; [|apply Hl; exact Hdl].
      rewrite updn_same. exact Hv. }
    rewrite get_permute; [reflexivity|exact Hpp|exact Hvu].
Qed.


(** * the padding used by the transforms *)
Definition emode (m : mode) : extmode :=
  match m with
  | Mzero => EPad PConstant | Mconstant => EPad PReplicate | Mperiodic => EPad PCircular
  | Mreflect => EPad PReflect | Msymmetric => ESymmetric
  end.

Lemma translate_mode m : translate_boundary (Some (mode_name m)) = Ok (emode m).
Proof. destruct m; reflexivity. Qed.

(** which pads a mode can serve on an axis of length n *)
Definition padok (m : mode) (n : nat) (p : nat * nat) : Prop :=
  match m with
  | Mzero => True
  | Mconstant | Msymmetric => 0 < n
  | Mperiodic => 0 < n /\ fst p <= n /\ snd p <= n
  | Mreflect => fst p < n /\ snd p < n
  end.

Definition pad_shape (s : list nat) (pads : list (nat * nat)) : list nat :=
  map2 (fun n p => fst p + n + snd p) s pads.
Definition pad_zs (o : list nat) (pads : list (nat * nat)) : list Z :=
  map2 (fun o p => (Z.of_nat o - Z.of_nat (fst p))%Z) o pads.

(** the window of the extension *)
Definition padded (m : mode) (pads : list (nat * nat)) t : tensor K :=
  let k := rank t - List.length pads in
  tmake (ttag t) (firstn k (shp t) ++ pad_shape (skipn k (shp t)) pads)
    (fun idx => ext_get m (skipn k (shp t)) (fun is => get t (firstn k idx ++ is)) (pad_zs (skipn k idx) pads)).

Definition pmode (m : mode) : padmode :=
  match m with Mzero => PConstant | Mconstant => PReplicate | Mperiodic => PCircular | _ => PReflect end.

Lemma pad_src_ext m n p o : m <> Msymmetric -> padok m n p -> o < fst p + n + snd p ->
  pad_src (pmode m) n (fst p) o = ext_idx m n (Z.of_nat o - Z.of_nat (fst p)).
Proof.
  destruct p as [pl pr]. cbn [fst snd]. intros Hm Hok Ho. destruct m; try congruence; cbn [pmode pad_src ext_idx padok fst snd] in *.
  - destruct (Nat.ltb_spec o pl).
    + destruct (Z.leb_spec 0 (Z.of_nat o - Z.of_nat pl)); [lia|reflexivity].
    + destruct (Z.leb_spec 0 (Z.of_nat o - Z.of_nat pl)); [|lia].
      destruct (Nat.ltb_spec (o - pl) n), (Z.ltb_spec (Z.of_nat o - Z.of_nat pl) (Z.of_nat n)); cbn; try lia; [|reflexivity].
      f_equal. lia.
  - f_equal. lia.
  - destruct Hok as (Hn & H1 & H2). destruct (Nat.ltb_spec o pl).
    + f_equal. rewrite <- (Z.mod_add _ 1) by lia. rewrite Z.mod_small by lia. lia.
    + destruct (Nat.ltb_spec (o - pl) n).
      * f_equal. rewrite Z.mod_small by lia. lia.
      * f_equal. rewrite <- (Z.mod_add _ (-1)) by lia. rewrite Z.mod_small by lia. lia.
  - destruct Hok as (H1 & H2). destruct (Nat.ltb_spec o pl).
    + f_equal. rewrite <- (Z.mod_add _ 1) by lia. rewrite Z.mod_small by lia.
      destruct (Z.ltb_spec (Z.of_nat o - Z.of_nat pl + 1 * (2 * Z.of_nat n - 2)) (Z.of_nat n)); lia.
    + destruct (Nat.ltb_spec (o - pl) n).
      * f_equal. destruct (Nat.eq_dec n 1) as [->|].
        -- assert (o - pl = 0) as E by lia. rewrite E.
           replace (Z.of_nat o - Z.of_nat pl)%Z with 0%Z by lia. reflexivity.
        -- destruct (Z.eq_dec (Z.of_nat o - Z.of_nat pl) 0) as [Ez|].
           ++ rewrite Ez. rewrite Zmod_0_l. destruct (Z.ltb_spec 0 (Z.of_nat n)); lia.
           ++ rewrite Z.mod_small by lia.
              destruct (Z.ltb_spec (Z.of_nat o - Z.of_nat pl) (Z.of_nat n)); lia.
      * f_equal. destruct (Z.eq_dec (Z.of_nat o - Z.of_nat pl) (2 * Z.of_nat n - 2)) as [Ez|].
        -- rewrite Ez. rewrite Z_mod_same_full. destruct (Z.ltb_spec 0 (Z.of_nat n)); lia.
        -- rewrite Z.mod_small by lia.
           destruct (Z.ltb_spec (Z.of_nat o - Z.of_nat pl) (Z.of_nat n)); lia.
Qed.

Lemma pad_srcs_ext m s pads o : m <> Msymmetric -> List.length s = List.length pads ->
  Forall2 (padok m) s pads -> valid o (pad_shape s pads) ->
  pad_srcs (pmode m) s pads o = ext_idxs m s (pad_zs o pads).
Proof.
  intros Hm Hl Hok. revert o. induction Hok as [|n p s pads Hp Hok IH]; intros o Hv; cbn in *.
  - inversion Hv; subst. reflexivity.
  - inversion Hv as [|i m' is ms Hi Hvs]; subst. cbn [pad_zs map2].
    rewrite pad_src_ext by assumption. rewrite IH by (auto; lia). reflexivity.
Qed.

Lemma pad_ok_bool m s pads : m <> Msymmetric -> Forall2 (padok m) s pads ->
  forallb (fun b => b) (map2 (pad_ok (pmode m)) s pads) = true.
Proof.
  intros Hm H. induction H as [|n [pl pr] s pads Hp Hok IH]; cbn; [reflexivity|].
  rewrite IH, andb_true_r. destruct m; cbn [pad_ok pmode padok fst snd] in *; try congruence; auto.
  - apply Nat.ltb_lt. exact Hp.
  - apply andb_true_iff. rewrite !Nat.leb_le. tauto.
  - apply andb_true_iff. rewrite !Nat.ltb_lt. tauto.
Qed.

Definition symidxs (s : list nat) (pads : list (nat * nat)) (o : list nat) : list nat :=
  map2 (fun np i => Z.to_nat (symz (fst np) (Z.of_nat i - Z.of_nat (fst (snd np))))) (combine s pads) o.

Lemma ext_idxs_sym s pads o : List.length s = List.length pads -> List.length o = List.length s ->
  ext_idxs Msymmetric s (pad_zs o pads) = Some (symidxs s pads o).
Proof.
  revert pads o. induction s as [|n s IH]; intros [|p pads] [|i o] H1 H2; cbn in *; try lia; [reflexivity|].
  fold (pad_zs o pads). rewrite IH by lia. reflexivity.
Qed.

Lemma symidxs_valid s pads o : List.length s = List.length pads -> List.length o = List.length s ->
  Forall (lt 0) s -> valid (symidxs s pads o) s.
Proof.
  revert pads o. induction s as [|n s IH]; intros [|p pads] [|i o] H1 H2 H3; cbn in *; try lia; [constructor|].
  inversion H3; subst. constructor; [|apply IH; auto; lia].
  pose proof (symz_range n (Z.of_nat i - Z.of_nat (fst p)) ltac:(assumption)). lia.
Qed.

Lemma sym_axis_ok t d pl pr : wf t -> d < rank t -> 0 < nth d (shp t) 0 ->
  exists r, pad_symmetric_1d (S (S (pl + pr))) (transpose t 0 d) pl pr = Ok r /\
    transpose r d 0 = remap d (pl + nth d (shp t) 0 + pr)
       (fun o => Z.to_nat (symz (nth d (shp t) 0) (Z.of_nat o - Z.of_nat pl))) t.
Proof.
  intros Hw Hd Hn. set (n := nth d (shp t) 0) in *.
  assert (Hr0 : 0 < rank t) by lia.
  assert (Hpp : is_perm (map (swapn 0 d) (seq 0 (rank t))) (rank t)) by (apply swap_perm; lia).
  assert (Hrt : rank (transpose t 0 d) = rank t).
  { unfold rank at 1. cbn [transpose permute_nat shp tmake]. rewrite gather_length, map_length, seq_length. reflexivity. }
  assert (Hhd : hd 0 (shp (transpose t 0 d)) = n).
  { cbn [transpose permute_nat shp tmake]. unfold gather. rewrite map_map.
    destruct (rank t) as [|k] eqn:Ek; [lia|]. cbn [seq map hd]. unfold swapn. reflexivity. }
  rewrite <- (sel0_id (transpose t 0 d)); [|apply wf_make|lia]. rewrite Hhd.
  rewrite pad_sym_sel.
  destruct (psl_ok (S (S (pl + pr))) (seq 0 n) pl pr) as (r & Hr & [W1 W2]); [rewrite seq_length; lia|lia|].
  rewrite Hr. eexists. split; [reflexivity|]. rewrite seq_length in W1, W2.
  assert (Hnth : forall o, o < List.length r -> nth o r 0 = Z.to_nat (symz n (Z.of_nat o - Z.of_nat pl))).
  { intros o Ho. rewrite W2 by exact Ho. apply nth_seq0.
    pose proof (symz_range n (Z.of_nat o - Z.of_nat pl) Hn). lia. }
  rewrite transpose_remap; auto.
  - rewrite W1. unfold remap. apply make_ext. intros idx Hv. rewrite Hnth; [reflexivity|].
    rewrite W1. pose proof (valid_nth _ _ d Hv) as H1. rewrite updn_length in H1. specialize (H1 Hd).
    rewrite nth_updn_eq in H1 by exact Hd. exact H1.
  - intros i Hi. fold n. rewrite Hnth by exact Hi.
    pose proof (symz_range n (Z.of_nat i - Z.of_nat pl) Hn). lia.
Qed.

Lemma sym_loop pads : forall s t lead dn pos dims, wf t -> shp t = lead ++ s ++ dn ->
  List.length s = List.length pads -> Forall (lt 0) s ->
  (pads <> [] -> dims - pos = List.length lead + List.length s - 1) -> (pads <> [] -> pos + List.length pads <= S dims) ->
  exists r, pad_symmetric_loop t dims pos (rev pads) = Ok r /\ wf r /\ ttag r = ttag t /\
    shp r = lead ++ pad_shape s pads ++ dn /\
    forall il i2 id, valid il lead -> valid i2 (pad_shape s pads) -> valid id dn ->
      get r (il ++ i2 ++ id) = get t (il ++ symidxs s pads i2 ++ id).
Proof.
  induction pads as [|[pl pr] pads IH] using rev_ind; intros s t lead dn pos dims Hw Hs Hl Hpos Hd Hd2.
  - destruct s; [|cbn in Hl; lia]. cbn. exists t. repeat split; auto.
    intros il i2 id _ H2 _. inversion H2; subst. reflexivity.
  - rewrite app_length in Hl. cbn in Hl.
    destruct (exists_last (l:=s)) as (s' & n & ->); [intros ->; cbn in Hl; lia|].
    rewrite app_length in *. cbn [List.length] in *.
    rewrite rev_app_distr. cbn [rev app pad_symmetric_loop].
    assert (Hne : pads ++ [(pl, pr)] <> []) by (destruct pads; discriminate).
    specialize (Hd Hne). specialize (Hd2 Hne). set (d := dims - pos) in *.
    assert (Ed : d = List.length lead + List.length s') by lia.
    assert (Hnth : nth d (shp t) 0 = n).
    { rewrite Hs, Ed. rewrite app_nth2 by lia. rewrite <- app_assoc. rewrite app_nth2 by lia.
      replace (List.length lead + List.length s' - List.length lead - List.length s') with 0 by lia. reflexivity. }
    assert (Hrk : d < rank t) by (unfold rank; rewrite Hs, !app_length; cbn; lia).
    assert (Hn : 0 < n) by (apply Forall_app in Hpos; destruct Hpos as [_ H]; inversion H; assumption).
    destruct (sym_axis_ok t d pl pr Hw Hrk) as (r1 & Hr1 & Ht1); [lia|].
    rewrite Hr1. cbn [rbind]. rewrite Ht1, Hnth. set (t1 := remap _ _ _ t).
    assert (Hs1 : shp t1 = lead ++ s' ++ (pl + n + pr) :: dn).
    { unfold t1, remap. rewrite shp_make, Hs, Ed. rewrite updn_app2 by lia.
      rewrite <- app_assoc. rewrite updn_app2 by lia.
      replace (List.length lead + List.length s' - List.length lead - List.length s') with 0 by lia. reflexivity. }
    destruct (IH s' t1 lead ((pl + n + pr) :: dn) (S pos) dims) as (r & Hr & Hwr & Htg & Hsr & Hg).
    + apply wf_make.
    + exact Hs1.
    + lia.
    + apply Forall_app in Hpos. apply Hpos.
    + intros _. lia.
    + intros Hne'. lia.
    + exists r. split; [exact Hr|]. split; [exact Hwr|]. split; [exact Htg|]. split.
      * rewrite Hsr. unfold pad_shape. f_equal. 
        assert (Hm : forall (A B C : Type) (f : A -> B -> C) l1 l2 a b, List.length l1 = List.length l2 ->
                   map2 f (l1 ++ [a]) (l2 ++ [b]) = map2 f l1 l2 ++ [f a b]).
        { intros A B C f l1. induction l1 as [|x l1 IHl]; intros [|y l2] a b Hll; cbn in *; try lia; [reflexivity|].
          rewrite IHl by lia. reflexivity. }
        rewrite Hm by lia. rewrite <- app_assoc. reflexivity.
      * intros il i2 id Hil Hi2 Hid.
        assert (Hm : pad_shape (s' ++ [n]) (pads ++ [(pl, pr)]) = pad_shape s' pads ++ [pl + n + pr]).
        { unfold pad_shape. clear - Hl. revert pads Hl. induction s' as [|x s' IHs]; intros [|p pads] Hl; cbn in *; try lia; [reflexivity|].
          rewrite IHs by lia. reflexivity. }
        rewrite Hm in Hi2. apply Forall2_app_inv_r in Hi2.
        destruct Hi2 as (i' & l2 & Hi' & Hl2 & ->).
        assert (Ho' : exists o, l2 = [o] /\ o < pl + n + pr).
        { clear - Hl2. inversion Hl2 as [|o m' is ms Ho Hnil]; subst. inversion Hnil; subst. eauto. }
        destruct Ho' as (o & -> & Ho).
        rewrite <- !app_assoc. cbn [app].
        rewrite (Hg il i' (o :: id)); [|assumption|assumption|constructor; assumption].
        assert (Li' : List.length i' = List.length s').
        { apply valid_length in Hi'. rewrite Hi'. unfold pad_shape. rewrite map2_length. lia. }
        assert (Hsi : List.length (symidxs s' pads i') = List.length s').
        { unfold symidxs. rewrite map2_length, combine_length. lia. }
        unfold t1, remap. rewrite get_make.
        2:{ change (updn d (pl + n + pr) (shp t)) with (shp t1). rewrite Hs1.
            apply valid_app; [assumption|]. apply valid_app; [|constructor; assumption].
            apply symidxs_valid; try lia. apply Forall_app in Hpos. apply Hpos. }
        pose proof (valid_length _ _ Hil) as Lil.
        assert (Hno : nth d (il ++ symidxs s' pads i' ++ o :: id) 0 = o).
        { rewrite Ed. rewrite app_nth2 by lia. rewrite app_nth2 by lia.
          replace (List.length lead + List.length s' - List.length il - List.length (symidxs s' pads i')) with 0 by lia.
          reflexivity. }
        rewrite Hno. f_equal. rewrite Ed. rewrite updn_app2 by lia. rewrite updn_app2 by lia.
        replace (List.length lead + List.length s' - List.length il - List.length (symidxs s' pads i')) with 0 by lia.
        cbn [updn]. f_equal.
        assert (Hsy : symidxs (s' ++ [n]) (pads ++ [(pl, pr)]) (i' ++ [o])
                      = symidxs s' pads i' ++ [Z.to_nat (symz n (Z.of_nat o - Z.of_nat pl))]).
        { unfold symidxs. assert (Hl' : List.length s' = List.length pads) by lia. clear - Hl' Li'.
          revert pads i' Hl' Li'.
          induction s' as [|x s' IHs]; intros [|p pads] [|i i'] H1 H2; cbn in *; try lia; [reflexivity|].
          rewrite IHs by lia. reflexivity. }
        rewrite Hsy, <- app_assoc. reflexivity.
Qed.

Lemma pad_dispatch_ok m t lead s pads : wf t -> shp t = lead ++ s -> List.length s = List.length pads ->
  List.length lead = 1 \/ List.length lead = 2 -> 1 <= List.length pads <= 3 ->
  Forall2 (padok m) s pads ->
  pad_dispatch t (rev pads) (emode m) = Ok (padded m pads t).
Proof.
  intros Hw Hs Hl Hlead HD Hok.
  assert (Hk : rank t - List.length pads = List.length lead) by (unfold rank; rewrite Hs, app_length; lia).
  assert (Hf : firstn (List.length lead) (shp t) = lead) by (rewrite Hs; apply firstn_app_exact; reflexivity).
  assert (Hsk : skipn (List.length lead) (shp t) = s) by (rewrite Hs; apply skipn_app_exact; reflexivity).
  destruct (match m with Msymmetric => true | _ => false end) eqn:Em.
  - destruct m; try discriminate. cbn [pad_dispatch emode]. unfold group_for_symmetric. rewrite rev_involutive.
    unfold pad_symmetric. assert (Hr : rank t = List.length lead + List.length s) by (unfold rank; rewrite Hs, app_length; lia).
    destruct (Nat.ltb_spec (rank t) (List.length pads)); [lia|].
    assert (Hpos : Forall (lt 0) s).
    { clear - Hok. induction Hok; constructor; auto. }
    destruct (sym_loop pads s t lead [] 0 (rank t - 1)) as (r & Hr1 & Hwr & Htg & Hsr & Hg); auto.
    { rewrite app_nil_r. exact Hs. }
    { intros _. lia. }
    { intros _. lia. }
    rewrite Hr1. f_equal. apply t_ext; auto.
    + apply wf_make.
    + rewrite Hsr, app_nil_r. unfold padded. rewrite shp_make, Hk, Hf, Hsk. reflexivity.
    + intros idx Hv. rewrite Hsr, app_nil_r in Hv. unfold padded. rewrite get_make.
      2:{ rewrite Hk, Hf, Hsk. exact Hv. }
      rewrite Hk, Hsk. apply Forall2_app_inv_r in Hv. destruct Hv as (il & i2 & H1 & H2 & ->).
      rewrite firstn_app_exact by (apply valid_length; exact H1).
      rewrite skipn_app_exact by (apply valid_length; exact H1).
      specialize (Hg il i2 [] H1 H2 ltac:(constructor)). rewrite !app_nil_r in Hg. rewrite Hg.
      unfold ext_get. rewrite ext_idxs_sym; auto.
      apply valid_length in H2. rewrite H2. unfold pad_shape. rewrite map2_length. lia.
  - assert (Hm : m <> Msymmetric) by (intros ->; discriminate).
    assert (E : pad_dispatch t (rev pads) (emode m) = fpad t pads (pmode m)).
    { destruct m; try discriminate; cbn [pad_dispatch emode pmode]; rewrite rev_involutive; reflexivity. }
    rewrite E. unfold fpad. rewrite Hk, Hf, Hsk.
    destruct (Nat.ltb_spec (rank t) (List.length pads)); [unfold rank in *; rewrite Hs, app_length in *; lia|].
    assert (Hrk : match pmode m with
                   | PConstant => true
                   | _ => (Nat.eqb (rank t) (List.length pads + 1) || Nat.eqb (rank t) (List.length pads + 2))
                          && Nat.leb 1 (List.length pads) && Nat.leb (List.length pads) 3
                   end = true).
    { assert (Hx : (Nat.eqb (rank t) (List.length pads + 1) || Nat.eqb (rank t) (List.length pads + 2))
                          && Nat.leb 1 (List.length pads) && Nat.leb (List.length pads) 3 = true).
      { unfold rank. rewrite Hs, app_length. rewrite !andb_true_iff, orb_true_iff, !Nat.eqb_eq, !Nat.leb_le. lia. }
      destruct (pmode m); auto. }
    rewrite Hrk. cbn [negb]. rewrite pad_ok_bool by assumption. cbn [negb]. f_equal.
    unfold padded. rewrite Hk, Hf, Hsk. apply make_ext. intros idx Hv.
    apply Forall2_app_inv_r in Hv. destruct Hv as (il & i2 & H1 & H2 & ->).
    rewrite skipn_app_exact by (apply valid_length; exact H1).
    rewrite firstn_app_exact by (apply valid_length; exact H1).
    unfold ext_get. rewrite pad_srcs_ext by assumption. reflexivity.
Qed.

End T.
