(** matmul_transform.orthogonalize: which rows are changed and what comes out. *)
From Coq Require Import List Arith ZArith Lia Bool String Ring.
From Verif Require Import Base Sums Tensor TensorFacts Accept Sparse SparseFacts SparseConv SpecMat SparseMM LinAlg GramSchmidt Mat1.
Import ListNotations.

(** what is used of the linear algebra primitives, per method *)
Definition la_ok {K : CRing} (LA : linalg K) (method : string) : Prop :=
  (method = "qr"%string /\ la_qr_ok LA) \/ (method = "gramschmidt"%string /\ formally_real K /\ la_div_ok LA /\ la_sqrt_ok LA).
(** the number of columns at which row i has a stored entry *)
Definition stored_in_row {K : CRing} (m : smat K) (i : nat) : nat :=
  List.length (filter (fun j => existsb (at_pos i j) (s_ent m)) (seq 0 (s_cols m))).

Section MO.
Context {K : CRing}.
Add Ring Kring : (cr_th K).
Open Scope K_scope.
Variable LA : linalg K.
Hypothesis HD : domain K.
Implicit Types (m : smat K).

Lemma filter_flat_map {A B} (p : B -> bool) (f : A -> list B) l : filter p (flat_map f l) = flat_map (fun a => filter p (f a)) l.
Proof. induction l as [|a l IH]; [reflexivity|]. cbn. rewrite filter_app, IH. reflexivity. Qed.
Lemma flat_map_none {A B} (f : A -> list B) l : (forall a, In a l -> f a = []) -> flat_map f l = [].
Proof. induction l as [|a l IH]; intros H; [reflexivity|]. cbn. rewrite (H a (or_introl eq_refl)), IH; [reflexivity|]. intros; apply H; right; assumption. Qed.
Lemma flat_map_one (f : nat -> list (nat * nat)) n i : (i < n)%nat -> (forall a, a <> i -> f a = []) -> flat_map f (seq 0 n) = f i.
Proof.
  intros Hi H. replace n with (i + S (n - i - 1))%nat by lia. rewrite seq_app, flat_map_app. cbn [seq flat_map].
  rewrite flat_map_none by (intros a Ha; apply in_seq in Ha; apply H; lia). rewrite flat_map_none by (intros a Ha; apply in_seq in Ha; apply H; lia).
  rewrite app_nil_r. reflexivity.
Qed.
Lemma row_count_eq m i : (i < s_rows m)%nat -> row_count m i = stored_in_row m i.
Proof.
  intros Hi. unfold row_count, stored_in_row, coalesce. cbn [s_ent].
  assert (E : forall (ps : list (nat * nat)), List.length (filter (fun e => Nat.eqb (fst (fst e)) i) (map (fun p => (fst p, snd p, mget m (fst p) (snd p))) ps)) = List.length (filter (fun p => Nat.eqb (fst p) i) ps)).
  { induction ps as [|p ps IH]; [reflexivity|]. cbn [map filter]. cbn [fst snd]. destruct (Nat.eqb (fst p) i); cbn [List.length]; rewrite IH; reflexivity. }
  rewrite E. unfold stored. rewrite filter_flat_map. rewrite (flat_map_one _ _ i Hi).
  - rewrite filter_flat_map. induction (seq 0 (s_cols m)) as [|j l IH]; [reflexivity|]. cbn [flat_map filter]. rewrite app_length, IH.
    destruct (existsb (at_pos i j) (s_ent m)); cbn [filter]; [|reflexivity]. cbn [fst]. rewrite Nat.eqb_refl. reflexivity.
  - intros a Ha. rewrite filter_flat_map. apply flat_map_none. intros j _. destruct (existsb (at_pos a j) (s_ent m)); [|reflexivity]. cbn [filter fst].
    destruct (Nat.eqb_spec a i); [contradiction|reflexivity].
Qed.
Lemma in_get_to m L i : In i (get_to_orthogonalize m L) <-> (i < s_rows m)%nat /\ stored_in_row m i <> 0%nat /\ stored_in_row m i <> L.
Proof.
  unfold get_to_orthogonalize. rewrite filter_In, in_seq. split.
  - intros [H1 H2]. assert (H : (i < s_rows m)%nat) by lia. rewrite (row_count_eq m i H) in H2. apply andb_true_iff in H2. rewrite !negb_true_iff, !Nat.eqb_neq in H2. tauto.
  - intros (H & H1 & H2). split; [lia|]. rewrite (row_count_eq m i H). apply andb_true_iff. rewrite !negb_true_iff, !Nat.eqb_neq. tauto.
Qed.
Lemma get_to_nodup m L : NoDup (get_to_orthogonalize m L).
Proof. apply NoDup_filter, seq_NoDup. Qed.

Lemma orthogonalize_ok m n L method : la_ok LA method -> s_wf m -> s_rows m = n -> s_cols m = n ->
  (method = "qr"%string -> get_to_orthogonalize m L <> [] -> In (n - 1)%nat (get_to_orthogonalize m L)) ->
  (forall i k, (i < n)%nat -> (k < n)%nat -> ~ In i (get_to_orthogonalize m L) -> dot n (mget m i) (mget m k) = delta i k) ->
  independent n (get_to_orthogonalize m L) (mget m) ->
  exists r, orthogonalize LA m L method = Ok r /\ s_tag r = s_tag m /\ s_rows r = n /\ s_cols r = n /\ s_wf r /\
  (forall i j, ~ In i (get_to_orthogonalize m L) -> mget r i j = mget m i j) /\ orthonormal_rows n n (mget r) /\
  (forall i, In i (get_to_orthogonalize m L) -> in_span n (get_to_orthogonalize m L) (mget r) (mget m i)).
Proof.
  intros HLA Hw Hr Hc Hlast Hcomp Hind. unfold orthogonalize. remember (get_to_orthogonalize m L) as l eqn:Hl.
  assert (Hnd : NoDup l) by (subst l; apply get_to_nodup).
  assert (Hlt : forall i, In i l -> (i < n)%nat) by (intros i Hi; subst l; apply in_get_to in Hi; lia).
  clear Hl. destruct l as [|i0 l0].
  - exists m. repeat split; auto; [|intros i []]. intros i k Hi Hk. apply Hcomp; auto.
  - assert (Hne : i0 :: l0 <> []) by discriminate. set (l := i0 :: l0) in *. clearbody l. clear i0 l0.
    assert (Hfin : forall r, (forall i j, ~ In i l -> mget r i j = mget m i j) -> orthonormal_on n l (mget r) ->
      (forall u, (forall i, In i l -> dot n u (mget m i) = 0) -> forall i, In i l -> dot n u (mget r i) = 0) -> orthonormal_rows n n (mget r)).
    { intros r H1 H2 H3 i k Hi Hk.
      destruct (in_dec Nat.eq_dec i l) as [Ii|Ii]; destruct (in_dec Nat.eq_dec k l) as [Ik|Ik].
      - apply H2; assumption.
      - rewrite dot_comm, (dot_ext n _ (mget m k) _ (mget r i)) by (intros; auto). rewrite H3; auto.
        + unfold delta. destruct (Nat.eqb_spec i k) as [->|_]; [contradiction|reflexivity].
        + intros a Ha. rewrite Hcomp by auto. unfold delta. destruct (Nat.eqb_spec k a) as [->|_]; [contradiction|reflexivity].
      - rewrite (dot_ext n _ (mget m i) _ (mget r k)) by (intros; auto). rewrite H3; auto.
        + unfold delta. destruct (Nat.eqb_spec i k) as [->|_]; [contradiction|reflexivity].
        + intros a Ha. rewrite Hcomp by auto. unfold delta. destruct (Nat.eqb_spec i a) as [->|_]; [contradiction|reflexivity].
      - rewrite (dot_ext n _ (mget m i) _ (mget m k)) by (intros; auto). apply Hcomp; auto. }
    destruct HLA as [[-> HQ]|(-> & HR & Hdv & Hsq)]; cbn [String.eqb Ascii.eqb Bool.eqb].
    + destruct (orth_by_qr_ok LA HD HQ m n l) as (r & E & R1 & R2 & R3 & R4 & R5 & R6 & R7 & R8); auto.
      exists r. rewrite E. repeat split; auto.
    + destruct (gs_loop_ok LA HD HR Hdv Hsq n l [] m) as (r & E & R1 & R2 & R3 & R4 & R5 & R6 & R7 & R8); auto.
      { intros i k []. }
      exists r. unfold orth_by_gram_schmidt. rewrite E. cbn [app] in *. repeat split; auto. apply Hfin; auto.
      intros u Hu i Hi. rewrite dot_comm. apply (span_orth n l (mget m)); [apply R7; exact Hi|]. intros a Ha. rewrite dot_comm. auto.
Qed.
End MO.
