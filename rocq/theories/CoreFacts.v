(** Fibrewise operations on preprocessed tensors, and the analysis step of all
    convolution transforms in N dimensions. *)
From Coq Require Import List Arith ZArith Lia Bool String Permutation.
From Coq Require Import ZifyNat ZifyBool.
From Verif Require Import Base Sums Tensor TensorFacts Util Perm Plumb Spec Conv1 PadFacts.
Import ListNotations.
Ltac Zify.zify_post_hook ::= Z.div_mod_to_equations.
#[global] Arguments Nat.ltb : simpl never.
#[global] Arguments Nat.div : simpl never.
#[global] Arguments Nat.modulo : simpl never.

Section Core.
Context {K : CRing}.
Add Ring Kring : (cr_th K).
Implicit Types t u x : tensor K.

(** a fibrewise operation on a tensor [b; s...] *)
Definition core (osz : list nat -> list nat) (op : list nat -> (list nat -> K) -> list nat -> K) t : tensor K :=
  tmake (ttag t) (hd 0 (shp t) :: osz (tl (shp t)))
    (fun idx => op (tl (shp t)) (fun is => get t (hd 0 idx :: is)) (tl idx)).

Lemma wf_core osz op t : wf (core osz op t).
Proof. apply wf_make. Qed.
Lemma shp_core osz op t : shp (core osz op t) = hd 0 (shp t) :: osz (tl (shp t)).
Proof. reflexivity. Qed.
Lemma ttag_core osz op t : ttag (core osz op t) = ttag t.
Proof. reflexivity. Qed.
Lemma get_core osz op t b is : b < hd 0 (shp t) -> valid is (osz (tl (shp t))) ->
  get (core osz op t) (b :: is) = op (tl (shp t)) (fun js => get t (b :: js)) is.
Proof. intros H1 H2. unfold core. rewrite get_make by (constructor; assumption). reflexivity. Qed.

(** op looks only at valid positions of the fibre *)
Definition op_ext (s : list nat) (op : list nat -> (list nat -> K) -> list nat -> K) : Prop :=
  forall X X' k, List.length k = List.length s ->
    (forall is, valid is s -> X is = X' is) -> op s X k = op s X' k.

(** upds and gather *)
Lemma upds_length axes vals idx : List.length (upds axes vals idx) = List.length idx.
Proof.
  revert vals. induction axes as [|a axes IH]; intros [|v vals]; cbn; auto. rewrite updn_length. apply IH.
Qed.

Lemma nth_upds_notin axes vals idx d def : ~ In d axes -> nth d (upds axes vals idx) def = nth d idx def.
Proof.
  revert vals. induction axes as [|a axes IH]; intros [|v vals] H; cbn in *; auto.
  rewrite nth_updn_ne by (intros ->; tauto). apply IH. tauto.
Qed.

Lemma gather_upds_notin p axes vals idx def : (forall d, In d p -> ~ In d axes) ->
  gather p def (upds axes vals idx) = gather p def idx.
Proof.
  intros H. unfold gather. apply map_ext_in. intros d Hd. apply nth_upds_notin. auto.
Qed.

Lemma gather_upds axes vals idx def : NoDup axes -> List.length vals = List.length axes ->
  (forall d, In d axes -> d < List.length idx) -> gather axes def (upds axes vals idx) = vals.
Proof.
  intros Hn. revert vals. induction Hn as [|a axes Ha Hn IH]; intros [|v vals] Hl Hin; cbn in *; try lia; [reflexivity|].
  f_equal.
  - apply nth_updn_eq. rewrite upds_length. apply Hin. auto.
  - transitivity (gather axes def (upds axes vals idx)); [|apply IH; auto; lia].
    apply map_ext_in. intros d Hd. apply nth_updn_ne. congruence.
Qed.

Lemma upds_gather axes idx : upds axes (gather axes 0 idx) idx = idx.
Proof. induction axes as [|a axes IH]; cbn; [reflexivity|]. fold (gather axes 0 idx). rewrite IH. apply updn_same. Qed.

Lemma valid_upds axes vals sz idx s : valid idx s -> valid vals sz -> List.length vals = List.length axes ->
  valid (upds axes vals idx) (upds axes sz s).
Proof.
  intros Hv Hw. revert axes. induction Hw as [|v n vals sz Hlt Hw IH]; intros [|a axes] Hl; cbn in *; try lia; auto.
  apply valid_updn; [apply IH; lia|exact Hlt].
Qed.

Lemma upds_upds axes v w idx : NoDup axes -> List.length v = List.length w -> upds axes v (upds axes w idx) = upds axes v idx.
Proof.
  intros Hn. revert v w. induction Hn as [|a axes Ha Hn IH]; intros [|x v] [|y w] Hl; cbn in *; try lia; auto.
  assert (Hc : forall vs l, upds axes vs (updn a y l) = updn a y (upds axes vs l)).
  { clear - Ha. revert Ha. induction axes as [|b axes IH]; intros Ha [|z vs] l; cbn in *; auto.
    rewrite IH by tauto. apply updn_comm. intros ->. tauto. }
  rewrite Hc, updn_updn. rewrite IH by lia. reflexivity.
Qed.

Lemma valid_upds_l axes vals idx s : NoDup axes -> (forall d, In d axes -> d < List.length s) ->
  valid idx (upds axes vals s) -> List.length vals = List.length axes ->
  forall is, valid is (gather axes 0 s) -> valid (upds axes is idx) s.
Proof.
  intros Hn Hin Hv Hl is His.
  pose proof (valid_length _ _ His) as Hli. rewrite gather_length in Hli.
  assert (E : s = upds axes (gather axes 0 s) (upds axes vals s)).
  { rewrite upds_upds by (auto; rewrite gather_length; lia). symmetry. apply upds_gather. }
  rewrite E. apply valid_upds; auto.
Qed.

Lemma shp_along osz op nax x : shp (along_axes osz op nax x) = upds nax (osz (gather nax 0 (shp x))) (shp x).
Proof. reflexivity. Qed.

Lemma rank_along osz op nax x : rank (along_axes osz op nax x) = rank x.
Proof. unfold rank. rewrite shp_along. apply upds_length. Qed.

(** postprocessing a fibrewise result = acting along the axes *)
Lemma post_core osz op nax x : wf x -> good_axes (rank x) nax ->
  op_ext (gather nax 0 (shp x)) op -> List.length (osz (gather nax 0 (shp x))) = List.length nax ->
  post_t nax (fsz nax (shp x)) (core osz op (pre_t nax x)) = along_axes osz op nax x.
Proof.
  intros Hw Hg Hext Ho. set (F := fsz nax (shp x)). set (s := gather nax 0 (shp x)) in *.
  pose proof (good_len _ _ Hg) as [Hl1 Hl2].
  assert (HF : List.length F = rank x - List.length nax) by (apply fsz_length; exact Hg).
  assert (Hr : List.length F + List.length nax = rank x) by lia.
  assert (Hsc : shp (core osz op (pre_t nax x)) = prodl F :: osz s) by reflexivity.
  assert (Hg' : good_axes (List.length F + List.length nax) nax) by (rewrite Hr; exact Hg).
  assert (Hshape : shp (post_t nax F (core osz op (pre_t nax x))) = upds nax (osz s) (shp x)).
  { rewrite (post_t_shp _ _ _ _ _ Hsc). rewrite Hr.
    pose proof (good_perm _ _ Hg) as Hp.
    rewrite <- (unperm_gather (perm_of nax (rank x)) (rank x) (upds nax (osz s) (shp x))); auto.
    2:{ rewrite upds_length. reflexivity. }
    f_equal. unfold perm_of. rewrite gather_app. f_equal.
    - unfold F, fsz. fold (rank x). symmetry. apply gather_upds_notin. intros d Hd. apply in_front in Hd. tauto.
    - symmetry. apply gather_upds; auto; [apply Hg|]. intros d Hd. apply Hg in Hd. exact Hd. }
  apply t_ext.
  - apply wf_make.
  - apply wf_make.
  - reflexivity.
  - exact Hshape.
  - intros idx Hv. rewrite (get_post_t nax F _ (osz s)); auto using wf_core.
    rewrite Hr. rewrite Hshape in Hv.
    assert (Hin : forall d, In d nax -> d < List.length (shp x)) by (intros d Hd; apply Hg in Hd; exact Hd).
    assert (Hfv : valid (gather (front_of nax (rank x)) 0 idx) F).
    { unfold F, fsz. fold (rank x).
      rewrite <- (gather_upds_notin (front_of nax (rank x)) nax (osz s) (shp x) 0).
      - apply valid_gather_sub; [|exact Hv]. intros d Hd. rewrite upds_length. apply in_front in Hd. apply Hd.
      - intros d Hd. apply in_front in Hd. tauto. }
    assert (Htv : valid (gather nax 0 idx) (osz s)).
    { rewrite <- (gather_upds nax (osz s) (shp x) 0) at 1; auto; [|apply Hg].
      apply valid_gather_sub; [|exact Hv]. intros d Hd. rewrite upds_length. auto. }
    rewrite get_core; [|cbn; apply ravel_lt; exact Hfv|exact Htv].
    unfold along_axes. rewrite get_make by exact Hv. cbn [pre_t shp tl]. fold s.
    apply Hext; [unfold s; rewrite !gather_length; reflexivity|]. intros is His.
    assert (Hvu : valid (upds nax is idx) (shp x)) by (apply (valid_upds_l nax (osz s)); auto; apply Hg).
    rewrite <- (get_pre_t nax x (upds nax is idx) Hg Hvu). fold F. f_equal. f_equal.
    + f_equal. symmetry. apply gather_upds_notin. intros d Hd. apply in_front in Hd. tauto.
    + symmetry. apply gather_upds; [apply Hg| |].
      * apply valid_length in His. unfold s in His. rewrite gather_length in His. exact His.
      * intros d Hd. apply valid_length in Hv. rewrite upds_length in Hv. rewrite Hv. auto.
Qed.

Lemma fsz_along nax osz op x : good_axes (rank x) nax -> fsz nax (shp (along_axes osz op nax x)) = fsz nax (shp x).
Proof.
  intros Hg. unfold fsz. rewrite shp_along, upds_length. apply gather_upds_notin.
  intros d Hd. apply in_front in Hd. tauto.
Qed.

Lemma gather_along nax osz op x : good_axes (rank x) nax -> List.length (osz (gather nax 0 (shp x))) = List.length nax ->
  gather nax 0 (shp (along_axes osz op nax x)) = osz (gather nax 0 (shp x)).
Proof.
  intros Hg Hl. rewrite shp_along. apply gather_upds; auto; [apply Hg|]. intros d Hd. apply Hg in Hd. exact Hd.
Qed.

Lemma pre_along osz op nax x : wf x -> good_axes (rank x) nax ->
  op_ext (gather nax 0 (shp x)) op -> List.length (osz (gather nax 0 (shp x))) = List.length nax ->
  pre_t nax (along_axes osz op nax x) = core osz op (pre_t nax x).
Proof.
  intros Hw Hg Hext Ho. rewrite <- post_core by assumption.
  apply (pre_post nax _ _ (osz (gather nax 0 (shp x)))).
  - apply wf_core.
  - reflexivity.
  - exact Ho.
  - rewrite fsz_length by exact Hg. pose proof (good_len _ _ Hg). fold (rank x).
    replace (rank x - List.length nax + List.length nax) with (rank x) by lia. exact Hg.
Qed.

(** * sums over filter taps *)
Lemma sumI_rev L D (f : list nat -> K) :
  sumI (repeat L D) f = sumI (repeat L D) (fun js => f (map (fun j => L - 1 - j) js)).
Proof.
  revert f. induction D as [|D IH]; intros f; cbn; [reflexivity|].
  rewrite (sumf_rev L). apply sumf_ext. intros i Hi. rewrite IH. reflexivity.
Qed.

Lemma valid_repeat js L D : valid js (repeat L D) <-> List.length js = D /\ forall j, In j js -> j < L.
Proof.
  revert js. induction D as [|D IH]; intros js; cbn.
  - split; [intros H; inversion H; subst; cbn; split; [reflexivity|tauto]|].
    intros [H _]. destruct js; [constructor|cbn in H; lia].
  - split.
    + intros H. inversion H as [|j l' js' ls Hj Hv]; subst. apply IH in Hv. destruct Hv as [H1 H2].
      cbn. split; [lia|]. intros k [<-|Hk]; auto.
    + intros [H1 H2]. destruct js as [|j js]; cbn in H1; [lia|]. constructor; [apply H2; left; reflexivity|].
      apply IH. split; [lia|]. intros k Hk. apply H2. right. exact Hk.
Qed.

(** * ext_get *)
Lemma some_inj {A} (a b : A) : Some a = Some b -> a = b.
Proof. congruence. Qed.

Lemma ext_idx_lt m n z i : (m = Mzero \/ 0 < n) -> (m = Mreflect -> 1 < n \/ (0 <= z < Z.of_nat n)%Z) ->
  ext_idx m n z = Some i -> i < n.
Proof.
  intros Hn Hr H. destruct m; unfold ext_idx in H; cbv zeta in H; try (apply some_inj in H; revert H).
  - destruct ((0 <=? z) && (z <? Z.of_nat n))%Z eqn:E; [|discriminate]. injection H as <-.
    apply andb_true_iff in E. rewrite Z.leb_le, Z.ltb_lt in E. lia.
  - intros <-. destruct Hn; [discriminate|]. lia.
  - intros <-. destruct Hn; [discriminate|]. pose proof (Z.mod_pos_bound z (Z.of_nat n) ltac:(lia)). lia.
  - intros <-. destruct Hn; [discriminate|]. pose proof (symz_range n z ltac:(lia)) as Hs.
    change (Z.to_nat (symz n z) < n). lia.
  - intros <-. destruct Hn; [discriminate|]. specialize (Hr eq_refl).
    destruct (Nat.eq_dec n 1) as [->|].
    + assert (z = 0%Z) as -> by lia. cbn. lia.
    + pose proof (Z.mod_pos_bound z (2 * Z.of_nat n - 2) ltac:(lia)).
      destruct (Z.ltb_spec (z mod (2 * Z.of_nat n - 2)) (Z.of_nat n)); lia.
Qed.

(** lengths on which the extension is total *)
Definition extendable (m : mode) (n : nat) : Prop :=
  match m with Mzero => True | Mreflect => 1 < n | _ => 0 < n end.

Lemma ext_idxs_valid m s zs is : List.length zs = List.length s -> Forall (extendable m) s ->
  ext_idxs m s zs = Some is -> valid is s.
Proof.
  intros Hl Hf. revert zs is Hl. induction Hf as [|n s Hn Hf IH]; intros [|z zs] is Hl H; cbn in *; try lia.
  - injection H as <-. constructor.
  - destruct (ext_idx m n z) as [i|] eqn:E1; [|discriminate].
    destruct (ext_idxs m s zs) as [is'|] eqn:E2; [|discriminate]. injection H as <-. constructor.
    + apply (ext_idx_lt m n z); auto; destruct m; cbn in Hn; try (right; lia); auto; try discriminate.
    + apply (IH zs); auto.
Qed.

Lemma ext_get_ext m s X X' zs : List.length zs = List.length s -> Forall (extendable m) s ->
  (forall is, valid is s -> X is = X' is) -> ext_get m s X zs = ext_get m s X' zs :> K.
Proof.
  intros Hl Hf H. unfold ext_get. destruct (ext_idxs m s zs) as [is|] eqn:E; [|reflexivity].
  apply H. apply (ext_idxs_valid m s zs); auto.
Qed.

Lemma adm_extendable m L n : 2 <= L -> admissible m L n -> extendable m n.
Proof. intros HL. unfold admissible, extendable. destruct m; intros H; try exact I; lia. Qed.

Lemma dwt_op_ext fs m s : List.length fs = List.length s -> Forall (extendable m) s -> op_ext s (dwt_op fs m).
Proof.
  intros Hl Hf X X' k Hk H. unfold dwt_op. apply sumI_ext. intros js Hjs.
  f_equal. apply ext_get_ext; auto. rewrite map2_length.
  apply valid_length in Hjs. rewrite map_length in Hjs. lia.
Qed.

End Core.
