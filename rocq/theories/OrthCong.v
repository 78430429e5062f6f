(** orthogonalize depends only on the values and the stored positions of a matrix, not on whether it is coalesced. *)
From Coq Require Import List Arith ZArith Lia Bool String Ring.
From Verif Require Import Base Sums Tensor TensorFacts Accept CoreFacts Sparse SparseFacts SparseConv Conv2Stored SpecMat Mat1 MatOrth.
Import ListNotations.

Section OC.
Context {K : CRing}.
Add Ring Kring : (cr_th K).
Open Scope K_scope.
Variable LA : linalg K.
Implicit Types (m : smat K).

Definition ceq m m' : Prop := s_tag m = s_tag m' /\ s_rows m = s_rows m' /\ s_cols m = s_cols m' /\ s_wf m /\ s_wf m' /\
  (forall i j, mget m i j = mget m' i j) /\ (forall i j, st m i j <-> st m' i j).
Definition req (r r' : result (smat K)) : Prop := match r, r' with Ok a, Ok b => ceq a b | Raise e, Raise e' => e = e' | _, _ => False end.

Lemma ceq_refl m : s_wf m -> ceq m m.
Proof. intros H. unfold ceq. tauto. Qed.
Lemma ceq_coalesce m : s_wf m -> ceq m (coalesce m).
Proof.
  intros H. repeat split; auto; [apply wf_coalesce|intros; symmetry; apply mget_coalesce; exact H| |]; apply (st_coalesce m i j H).
Qed.
Lemma coalesce_eq m m' : ceq m m' -> coalesce m = coalesce m'.
Proof.
  intros (H1 & H2 & H3 & H4 & H5 & H6 & H7). unfold coalesce. rewrite H1, H2, H3. f_equal.
  assert (E : stored (s_ent m) (s_rows m') (s_cols m') = stored (s_ent m') (s_rows m') (s_cols m')).
  { unfold stored. apply flat_map_ext. intros i. apply flat_map_ext. intros j.
    assert (Ee : existsb (at_pos i j) (s_ent m) = existsb (at_pos i j) (s_ent m')) by (apply eq_true_iff_eq; rewrite !existsb_pos; apply H7). rewrite Ee. reflexivity. }
  rewrite E. apply map_ext. intros p. rewrite H6. reflexivity.
Qed.
Lemma get_to_eq m m' L : ceq m m' -> get_to_orthogonalize m L = get_to_orthogonalize m' L.
Proof.
  intros H. pose proof (coalesce_eq m m' H) as E. destruct H as (_ & H2 & _). unfold get_to_orthogonalize, row_count. rewrite E, H2. reflexivity.
Qed.
Lemma ceq_add m m' u u' : ceq m m' -> ceq u u' -> req (sp_add m u) (sp_add m' u').
Proof.
  intros (H1 & H2 & H3 & H4 & H5 & H6 & H7) (G1 & G2 & G3 & G4 & G5 & G6 & G7). unfold sp_add, same_size. rewrite <- H2, <- H3, <- G2, <- G3, <- H1.
  destruct (Nat.eqb_spec (s_rows m) (s_rows u)) as [E1|]; cbn [andb]; [|exact eq_refl]. destruct (Nat.eqb_spec (s_cols m) (s_cols u)) as [E2|]; [|exact eq_refl].
  cbn [req]. repeat split; try reflexivity.
  - unfold s_wf in *. cbn [s_ent s_rows s_cols]. apply Forall_app. split; [exact H4|rewrite E1, E2; exact G4].
  - unfold s_wf in *. cbn [s_ent s_rows s_cols]. apply Forall_app. split; [rewrite H2, H3; exact H5|rewrite E1, E2, G2, G3; exact G5].
  - intros i j. unfold mget. cbn [s_ent]. rewrite !eg_app. fold (mget m i j) (mget u i j) (mget m' i j) (mget u' i j). rewrite H6, G6. reflexivity.
  - intros [x Hx]. cbn [s_ent] in Hx. apply in_app_or in Hx as [Hx|Hx].
    + destruct (proj1 (H7 i j)) as [y Hy]; [exists x; exact Hx|]. exists y. cbn [s_ent]. apply in_or_app. auto.
    + destruct (proj1 (G7 i j)) as [y Hy]; [exists x; exact Hx|]. exists y. cbn [s_ent]. apply in_or_app. auto.
  - intros [x Hx]. cbn [s_ent] in Hx. apply in_app_or in Hx as [Hx|Hx].
    + destruct (proj2 (H7 i j)) as [y Hy]; [exists x; exact Hx|]. exists y. cbn [s_ent]. apply in_or_app. auto.
    + destruct (proj2 (G7 i j)) as [y Hy]; [exists x; exact Hx|]. exists y. cbn [s_ent]. apply in_or_app. auto.
Qed.
Lemma ceq_t m m' : ceq m m' -> ceq (sp_t m) (sp_t m').
Proof.
  intros (H1 & H2 & H3 & H4 & H5 & H6 & H7). repeat split; auto; try (apply wf_t; assumption).
  - intros i j. rewrite !mget_t. apply H6.
  - rewrite !st_t. apply H7.
  - rewrite !st_t. apply H7.
Qed.
Lemma st_map f m i j : st (sp_map f m) i j <-> st m i j.
Proof.
  unfold st, sp_map. cbn [s_ent]. split.
  - intros [x Hx]. apply in_map_iff in Hx as ([[a b] y] & E & Hy). cbn [fst snd] in E. injection E as -> -> _. eauto.
  - intros [x Hx]. exists (f x). apply in_map_iff. exists ((i, j), x). auto.
Qed.
Lemma ceq_scale a m m' : ceq m m' -> ceq (sp_scale a m) (sp_scale a m').
Proof.
  intros (H1 & H2 & H3 & H4 & H5 & H6 & H7). repeat split; auto; try (apply wf_map; assumption).
  - intros i j. rewrite !mget_scale, H6. reflexivity.
  - unfold sp_scale. rewrite !st_map. apply H7.
  - unfold sp_scale. rewrite !st_map. apply H7.
Qed.
Lemma st_row m i a j : st (sp_row m i) a j <-> a = 0%nat /\ st m i j.
Proof.
  unfold st, sp_row. cbn [s_ent]. split.
  - intros [x Hx]. apply in_flat_map in Hx as ([[p q] y] & Hy & Hx). cbn [fst snd] in Hx. destruct (Nat.eqb_spec p i) as [->|]; [|destruct Hx]. destruct Hx as [Hx|[]]. injection Hx as <- <- <-. eauto.
  - intros [-> [x Hx]]. exists x. apply in_flat_map. exists ((i, j), x). split; [exact Hx|]. cbn [fst snd]. rewrite Nat.eqb_refl. left. reflexivity.
Qed.
Lemma ceq_row m m' i : ceq m m' -> ceq (sp_row m i) (sp_row m' i).
Proof.
  intros (H1 & H2 & H3 & H4 & H5 & H6 & H7). repeat split; auto; try (apply wf_row; assumption).
  - intros [|a] j; [rewrite !mget_row; apply H6|rewrite !mget_row_big by lia; reflexivity].
  - rewrite !st_row. intros [Ha Hs]. split; [exact Ha|apply H7, Hs].
  - rewrite !st_row. intros [Ha Hs]. split; [exact Ha|apply H7, Hs].
Qed.
Lemma ceq_mm m m' u u' : ceq m m' -> ceq u u' -> req (sp_mm m u) (sp_mm m' u').
Proof.
  intros (H1 & H2 & H3 & H4 & H5 & H6 & H7) (G1 & G2 & G3 & G4 & G5 & G6 & G7).
  destruct (sp_mm m u) as [r|e] eqn:E1; destruct (sp_mm m' u') as [r'|e'] eqn:E2.
  - destruct (sp_mm_ok m u r E1 H4 G4) as (_ & A2 & A3 & A4 & A5 & A6). destruct (sp_mm_ok m' u' r' E2 H5 G5) as (_ & B2 & B3 & B4 & B5 & B6).
    pose proof (fun i j => sp_mm_stored m u r i j E1 H4 G4) as S1. pose proof (fun i j => sp_mm_stored m' u' r' i j E2 H5 G5) as S2. cbn [req].
    repeat split; try congruence.
    + intros i j. rewrite A6, B6, H3. apply sumf_ext. intros k _. rewrite H6, G6. reflexivity.
    + unfold st. rewrite S1, S2. intros (k & x & y & Hx & Hy). destruct (proj1 (H7 i k)) as [x' Hx']; [exists x; exact Hx|]. destruct (proj1 (G7 k j)) as [y' Hy']; [exists y; exact Hy|]. eauto 6.
    + unfold st. rewrite S1, S2. intros (k & x & y & Hx & Hy). destruct (proj2 (H7 i k)) as [x' Hx']; [exists x; exact Hx|]. destruct (proj2 (G7 k j)) as [y' Hy']; [exists y; exact Hy|]. eauto 6.
  - exfalso. unfold sp_mm in E1, E2. rewrite H1, G1, H3, G2 in E1. destruct (tag_eqb _ _ && _); discriminate.
  - exfalso. unfold sp_mm in E1, E2. rewrite H1, G1, H3, G2 in E1. destruct (tag_eqb _ _ && _); discriminate.
  - cbn [req]. unfold sp_mm in E1, E2. destruct (tag_eqb (s_tag m) _ && _); [discriminate|]. destruct (tag_eqb (s_tag m') _ && _); [discriminate|]. congruence.
Qed.
Lemma to_dense_eq m m' : ceq m m' -> to_dense m = to_dense m'.
Proof.
  intros (H1 & H2 & H3 & _ & _ & H6 & _). unfold to_dense. rewrite H1, H2, H3. apply make_ext. intros idx _. destruct idx as [|i [|j [|? ?]]]; auto.
Qed.
Lemma req_bind {A : Type} (R : A -> A -> Prop) (r r' : result (smat K)) (f f' : smat K -> result A) : req r r' ->
  (forall a b, ceq a b -> match f a, f' b with Ok x, Ok y => R x y | Raise e, Raise e' => e = e' | _, _ => False end) ->
  match (let* a := r in f a), (let* b := r' in f' b) with Ok x, Ok y => R x y | Raise e, Raise e' => e = e' | _, _ => False end.
Proof. intros Hr Hf. destruct r as [a|e]; destruct r' as [b|e']; cbn [req] in Hr; try contradiction; cbn [rbind]; [apply Hf, Hr|exact Hr]. Qed.
Lemma fold_req {A : Type} (F F' : result (smat K) -> A -> result (smat K)) (l : list A) : (forall r r' x, req r r' -> req (F r x) (F' r' x)) -> forall r r', req r r' -> req (fold_left F l r) (fold_left F' l r').
Proof. intros H. induction l as [|x l IH]; intros r r' Hr; [exact Hr|]. cbn [fold_left]. apply IH, H, Hr. Qed.

Lemma orth_by_qr_eq m m' l : ceq m m' -> orth_by_qr LA m l = orth_by_qr LA m' l.
Proof.
  intros H. unfold orth_by_qr. pose proof H as (H1 & H2 & H3 & _). rewrite <- H1, <- H2, <- H3.
  set (S := sp_infer (s_tag m) _). pose proof (ceq_mm S S m m' (ceq_refl S (wf_infer _ _)) H) as Hs.
  destruct (sp_mm S m) as [sel|e]; destruct (sp_mm S m') as [sel'|e']; cbn [req] in Hs; try contradiction; cbn [rbind]; [|congruence].
  rewrite (to_dense_eq sel sel' Hs). set (Q := to_sparse _).
  destruct (sp_make (s_tag m) (s_rows m) (s_cols m) _) as [rm|] eqn:Er; cbn [rbind]; [|reflexivity]. apply sp_make_ok in Er as [_ Hrw].
  pose proof (ceq_mm rm rm m m' (ceq_refl rm Hrw) H) as Hr. destruct (sp_mm rm m) as [r1|e]; destruct (sp_mm rm m') as [r2|e2]; cbn [req] in Hr; try contradiction; cbn [rbind]; [|congruence].
  match goal with |- rbind (fold_left ?F ?s _) _ = _ => pose proof (fold_req F F s) as HF; assert (Hstep : forall r r' x, req r r' -> req (F r x) (F r' x)) end.
  { intros r r' x Hrr. apply (req_bind ceq); [exact Hrr|]. intros a b Hab. destruct (nth_error l x) as [i|]; [|reflexivity].
    destruct (sp_make _ _ _ _) as [ad|] eqn:Ea; cbn [rbind]; [|reflexivity]. apply sp_make_ok in Ea as [_ Hw]. apply (ceq_add a b ad ad Hab (ceq_refl ad Hw)). }
  specialize (HF Hstep (Ok r1) (Ok r2) Hr). match goal with |- rbind ?A _ = rbind ?B _ => destruct A as [a|e]; destruct B as [b|e']; cbn [req] in HF; try contradiction; cbn [rbind]; [|congruence] end.
  rewrite (coalesce_eq a b HF). reflexivity.
Qed.
Lemma gs_row_eq m m' done i : ceq m m' -> gs_row LA m done i = gs_row LA m' done i.
Proof.
  intros H. unfold gs_row. pose proof (ceq_row m m' i H) as Hc. pose proof Hc as (C1 & C2 & C3 & _). rewrite <- C1, <- C3.
  match goal with |- rbind (fold_left ?F ?l ?z) _ = rbind (fold_left ?F' _ _) _ => pose proof (fold_req F F' l) as HF; assert (Hstep : forall r r' x, req r r' -> req (F r x) (F' r' x)) end.
  { intros r r' x Hrr. apply (req_bind ceq); [exact Hrr|]. intros a b Hab. apply (req_bind ceq); [apply ceq_mm; [exact Hc|apply ceq_t, ceq_row, H]|].
    intros p q Hpq. pose proof Hpq as (_ & _ & _ & _ & _ & Hv & _). rewrite Hv. apply (ceq_add a b); [exact Hab|apply ceq_scale, ceq_row, H]. }
  assert (Hz : req (Ok (mkS (s_tag (sp_row m i)) 1 (s_cols (sp_row m i)) [])) (Ok (mkS (s_tag (sp_row m i)) 1 (s_cols (sp_row m i)) []))) by (apply ceq_refl; constructor).
  specialize (HF Hstep _ _ Hz). match goal with |- rbind ?A _ = rbind ?B _ => destruct A as [a|e]; destruct B as [b|e']; cbn [req] in HF; try contradiction; cbn [rbind]; [|congruence] end.
  pose proof (ceq_add _ _ _ _ Hc (ceq_scale (- (1)) a b HF)) as Ho.
  destruct (sp_add (sp_row m i) (sp_scale (- (1)) a)) as [o|e]; destruct (sp_add (sp_row m' i) (sp_scale (- (1)) b)) as [o'|e']; cbn [req] in Ho; try contradiction; cbn [rbind]; [|congruence].
  rewrite (coalesce_eq o o' Ho). assert (En : row_norm LA o = row_norm LA o'). { destruct Ho as (_ & _ & O3 & _ & _ & O6 & _). unfold row_norm. rewrite O3. f_equal. apply sumf_ext. intros j _. rewrite O6. reflexivity. }
  rewrite En. reflexivity.
Qed.
Lemma replace_row_eq m m' i row : ceq m m' -> sparse_replace_row m i row = sparse_replace_row m' i row.
Proof. intros H. pose proof (coalesce_eq m m' H) as E. destruct H as (H1 & H2 & H3 & _). unfold sparse_replace_row. rewrite E, H1, H2, H3. reflexivity. Qed.
Theorem orthogonalize_cong m m' L method : ceq m m' -> req (orthogonalize LA m L method) (orthogonalize LA m' L method).
Proof.
  intros H. unfold orthogonalize. rewrite (get_to_eq m m' L H). destruct (get_to_orthogonalize m' L) as [|i l]; [exact H|].
  assert (R : forall r : result (smat K), (forall a, r = Ok a -> s_wf a) -> req r r) by (intros [a|e] Hr; cbn [req]; [apply ceq_refl, Hr; reflexivity|reflexivity]).
  destruct (String.eqb method "qr").
  - rewrite (orth_by_qr_eq m m' _ H). apply R. intros a Ha. unfold orth_by_qr in Ha. repeat (apply rbind_ok in Ha as (? & _ & Ha)). injection Ha as <-. apply wf_coalesce.
  - destruct (String.eqb method "gramschmidt"); [|reflexivity]. unfold orth_by_gram_schmidt. cbn [gs_loop]. rewrite (gs_row_eq m m' [] i H).
    destruct (gs_row LA m' [] i) as [row|e]; cbn [rbind]; [|reflexivity]. rewrite (replace_row_eq m m' i row H). apply R. intros a Ha. apply rbind_ok in Ha as (m1 & E1 & Ha).
    assert (W1 : forall (q : smat K) p rw r, sparse_replace_row q p rw = Ok r -> s_wf r).
    { intros q p rw r Hq. unfold sparse_replace_row in Hq. destruct (negb _); [discriminate|]. destruct (negb _); [discriminate|]. apply rbind_ok in Hq as (rm & Er & Hq). apply rbind_ok in Hq as (ad & Ea & Hq). apply rbind_ok in Hq as (pr & Ep & Hq).
      apply sp_make_ok in Er as [_ Wr]. apply sp_make_ok in Ea as [-> Wa]. destruct (sp_mm_ok _ _ _ Ep Wr (wf_coalesce _)) as (_ & _ & _ & _ & Wp & _). apply sp_add_ok in Hq as (S1 & S2 & ->). cbn [s_rows s_cols s_ent] in *.
      unfold s_wf in *. cbn [s_rows s_cols s_ent] in *. apply Forall_app. split; [exact Wp|rewrite <- S1, <- S2; exact Wa]. }
    assert (W2 : forall t (q : smat K) d r, s_wf q -> gs_loop LA q d t = Ok r -> s_wf r).
    { induction t as [|x t IH]; intros q d r Hq Hr; cbn [gs_loop] in Hr; [injection Hr as <-; exact Hq|]. apply rbind_ok in Hr as (rw & _ & Hr). apply rbind_ok in Hr as (q' & Eq & Hr). apply (IH q' (d ++ [x]) r); [apply (W1 _ _ _ _ Eq)|exact Hr]. }
    apply (W2 l m1 ([] ++ [i]) a); [apply (W1 _ _ _ _ E1)|exact Ha].
Qed.
End OC.
