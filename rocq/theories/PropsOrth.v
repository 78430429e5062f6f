(** C38, C39: orthogonalisation and the boundary matrices. *)
From Coq Require Import List Arith ZArith Lia Bool String Ring.
From Verif Require Import Base Sums Tensor TensorFacts Util Accept Sparse SparseFacts SparseConv SpecMat SparseMM LinAlg GramSchmidt Mat1 MatOrth Boundary.
Import ListNotations.
Local Arguments Nat.div : simpl never.
Local Arguments Nat.modulo : simpl never.

(** the rows with stored entries, but not L of them *)
Definition incomplete_rows {K : CRing} (m : smat K) (L : nat) : list nat :=
  filter (fun i => negb (Nat.eqb (stored_in_row m i) 0) && negb (Nat.eqb (stored_in_row m i) L)) (seq 0 (s_rows m)).

Section PO.
Context {K : CRing}.
Add Ring Kring : (cr_th K).
Open Scope K_scope.
Variable LA : linalg K.
Hypothesis HD : domain K.
Implicit Types (m : smat K) (w : wavelet K).

Lemma incomplete_eq m L : get_to_orthogonalize m L = incomplete_rows m L.
Proof.
  unfold get_to_orthogonalize, incomplete_rows. apply filter_ext_in. intros i Hi. apply in_seq in Hi. rewrite row_count_eq by lia. reflexivity.
Qed.
Lemma complete_not m L i : stored_in_row m i = L -> ~ In i (incomplete_rows m L).
Proof. intros H Hi. apply filter_In in Hi. destruct Hi as [_ Hi]. rewrite H, Nat.eqb_refl, andb_comm in Hi. discriminate. Qed.
Lemma incomplete_lt m L i : In i (incomplete_rows m L) -> (i < s_rows m)%nat.
Proof. intros Hi. apply filter_In in Hi. destruct Hi as [Hi _]. apply in_seq in Hi. lia. Qed.
Lemma incomplete_nodup m L : NoDup (incomplete_rows m L).
Proof. rewrite <- incomplete_eq. apply get_to_nodup. Qed.
Lemma span_all n (l : list nat) (M : nat -> nat -> K) v : NoDup l -> (forall i, In i l -> (i < n)%nat) -> in_span n l M v -> in_span n (seq 0 n) M v.
Proof.
  intros Hn Hl H. apply (span_trans n l (seq 0 n) M M v H). intros i Hi. apply span_self; [apply seq_NoDup|]. apply in_seq. specialize (Hl i Hi). lia.
Qed.
Lemma span_ext n l (M : nat -> nat -> K) u v : (forall j, (j < n)%nat -> u j = v j) -> in_span n l M u -> in_span n l M v.
Proof. intros H [c Hc]. exists c. intros j Hj. rewrite <- H by exact Hj. apply Hc, Hj. Qed.

(** C38.  "No intermediate row vanishes" is linear independence of the incomplete rows. *)
Theorem C38_gramschmidt m n L : formally_real K -> la_div_ok LA -> la_sqrt_ok LA ->
  s_wf m -> s_rows m = n -> s_cols m = n ->
  (forall i k, (i < n)%nat -> (k < n)%nat -> ~ In i (incomplete_rows m L) -> dot n (mget m i) (mget m k) = delta i k) ->
  independent n (incomplete_rows m L) (mget m) ->
  exists r, orthogonalize LA m L "gramschmidt" = Ok r /\ s_tag r = s_tag m /\ s_rows r = n /\ s_cols r = n /\
    (forall i j, stored_in_row m i = L -> mget r i j = mget m i j) /\
    orthonormal_rows n n (mget r) /\
    (forall i, In i (incomplete_rows m L) -> in_span n (incomplete_rows m L) (mget m) (mget r i) /\ in_span n (incomplete_rows m L) (mget r) (mget m i)) /\
    (forall i, (i < n)%nat -> in_span n (seq 0 n) (mget m) (mget r i) /\ in_span n (seq 0 n) (mget r) (mget m i)).
Proof.
  intros HR Hdiv Hsq Hw Hr Hc Hcomp Hind.
  assert (HLA : la_ok LA "gramschmidt") by (right; auto).
  destruct (orthogonalize_ok LA HD m n L "gramschmidt" HLA Hw Hr Hc) as (r & Er & R1 & R2 & R3 & R4 & R5 & R6 & R7).
  - discriminate.
  - intros i k Hi Hk. rewrite incomplete_eq. apply Hcomp; assumption.
  - rewrite incomplete_eq. exact Hind.
  - rewrite incomplete_eq in R5, R7. exists r. split; [exact Er|]. repeat (split; [assumption|]).
    split; [intros i j Hi; apply R5, complete_not, Hi|]. split; [exact R6|].
    assert (Hspan : forall i, In i (incomplete_rows m L) -> in_span n (incomplete_rows m L) (mget m) (mget r i)).
    { destruct (gs_loop_ok LA HD HR Hdiv Hsq n (incomplete_rows m L) [] m Hw Hr Hc) as (r' & Er' & _ & _ & _ & _ & _ & _ & Hs & _).
      - apply incomplete_nodup.
      - intros i Hi. apply incomplete_lt in Hi. lia.
      - intros i k [].
      - exact Hind.
      - assert (r' = r \/ incomplete_rows m L = []) as [E|E].
        { unfold orthogonalize in Er. rewrite incomplete_eq in Er. destruct (incomplete_rows m L) as [|i0 l0] eqn:E; [right; reflexivity|]. left.
          change (gs_loop LA m [] (i0 :: l0) = Ok r) in Er. rewrite Er' in Er. injection Er as ->. reflexivity. }
        + rewrite <- E. exact Hs.
        + rewrite E. intros i []. }
    split; [intros i Hi; split; [apply Hspan, Hi|apply R7, Hi]|].
    intros i Hi. destruct (in_dec Nat.eq_dec i (incomplete_rows m L)) as [Hin|Hout].
    + split; (apply (span_all n (incomplete_rows m L)); [apply incomplete_nodup|intros k Hk; apply incomplete_lt in Hk; lia|]); [apply Hspan, Hin|apply R7, Hin].
    + split.
      * apply (span_ext n (seq 0 n) (mget m) (mget m i)); [intros j Hj; symmetry; apply R5, Hout|]. apply span_self; [apply seq_NoDup|apply in_seq; lia].
      * apply (span_ext n (seq 0 n) (mget r) (mget r i)); [intros j Hj; apply R5, Hout|]. apply span_self; [apply seq_NoDup|apply in_seq; lia].
Qed.
(** The same for QR, where the last row must be among the incomplete ones (the selection matrix of the code has an
    inferred size; see C38_qr_last_row below). *)
Theorem C38_qr m n L : la_qr_ok LA ->
  s_wf m -> s_rows m = n -> s_cols m = n -> (incomplete_rows m L = [] \/ In (n - 1)%nat (incomplete_rows m L)) ->
  (forall i k, (i < n)%nat -> (k < n)%nat -> ~ In i (incomplete_rows m L) -> dot n (mget m i) (mget m k) = delta i k) ->
  independent n (incomplete_rows m L) (mget m) ->
  exists r, orthogonalize LA m L "qr" = Ok r /\ s_tag r = s_tag m /\ s_rows r = n /\ s_cols r = n /\
    (forall i j, stored_in_row m i = L -> mget r i j = mget m i j) /\
    orthonormal_rows n n (mget r) /\
    (forall i, In i (incomplete_rows m L) -> in_span n (incomplete_rows m L) (mget r) (mget m i)).
Proof.
  intros Hqr Hw Hr Hc Hlast Hcomp Hind.
  assert (HLA : la_ok LA "qr") by (left; auto).
  destruct (orthogonalize_ok LA HD m n L "qr" HLA Hw Hr Hc) as (r & Er & R1 & R2 & R3 & R4 & R5 & R6 & R7).
  - intros _. rewrite incomplete_eq. destruct Hlast; [contradiction|auto].
  - intros i k Hi Hk. rewrite incomplete_eq. apply Hcomp; assumption.
  - rewrite incomplete_eq. exact Hind.
  - rewrite incomplete_eq in R5, R7. exists r. split; [exact Er|]. repeat (split; [assumption|]).
    split; [intros i j Hi; apply R5, complete_not, Hi|]. split; [exact R6|exact R7].
Qed.
(** without the last row the QR method fails *)
Theorem C38_qr_last_row m n L : s_rows m = n -> incomplete_rows m L <> [] -> ~ In (n - 1)%nat (incomplete_rows m L) ->
  orthogonalize LA m L "qr" = Raise RuntimeError.
Proof.
  intros Hr Hne Hlast. unfold orthogonalize. rewrite incomplete_eq.
  assert (E : orth_by_qr LA m (incomplete_rows m L) = Raise RuntimeError).
  { set (l := incomplete_rows m L) in *. unfold orth_by_qr.
    assert (Hlt : forall i, In i l -> (i < n)%nat) by (intros i Hi; apply incomplete_lt in Hi; lia).
    assert (Hn : (0 < n)%nat) by (destruct l as [|i l']; [contradiction|specialize (Hlt i (or_introl eq_refl)); lia]).
    set (ent := map (fun p => (fst p, snd p, kone (c := K))) (combine (seq 0 (List.length l)) l)).
    assert (Hc : (max1 (map (fun e => snd (fst e)) ent) < n)%nat).
    { enough (H : (max1 (map (fun e => snd (fst e)) ent) <= n - 1)%nat) by lia. apply max1_lub. intros i Hi. subst ent. rewrite map_map in Hi.
      apply in_map_iff in Hi. destruct Hi as ([a b] & <- & Hi). apply in_combine_r in Hi. cbn [fst snd]. pose proof (Hlt b Hi). assert (b <> (n - 1)%nat) by (intros ->; contradiction). lia. }
    unfold sp_mm. cbn [sp_infer s_tag s_cols]. fold ent. rewrite Hr. destruct (Nat.eqb_spec (max1 (map (fun e => snd (fst e)) ent)) n) as [E|_]; [lia|].
    rewrite andb_false_r. reflexivity. }
  destruct (incomplete_rows m L); [contradiction|exact E].
Qed.
(** any other method name is rejected, unless nothing has to be orthogonalised *)
Theorem C38_other_method m L method : method <> "qr"%string -> method <> "gramschmidt"%string ->
  orthogonalize LA m L method = if match incomplete_rows m L with [] => true | _ => false end then Ok m else Raise ValueError.
Proof.
  intros H1 H2. unfold orthogonalize. rewrite incomplete_eq. destruct (incomplete_rows m L); [reflexivity|].
  rewrite (proj2 (String.eqb_neq _ _) H1), (proj2 (String.eqb_neq _ _) H2). reflexivity.
Qed.

(** C39.  Row k of the upper (lower) half of the raw analysis matrix is the decomposition lowpass (highpass) filter,
    reversed and shifted by 2 k: entry c is f(L/2 + 2k - c).  It is complete when it does not stick out. *)
Definition complete_row (L n k : nat) : Prop := (L / 2 <= 2 * k + 1 /\ L / 2 + 2 * k < n)%nat.
Definition shifted (f : list K) (L k c : nat) : K := zget f (Z.of_nat (L / 2) + 2 * Z.of_nat k - Z.of_nat c).

Theorem C39_raw_matrix g w n L : orthogonal_bank L (dec_lo w) (dec_hi w) (rec_lo w) (rec_hi w) -> (0 < n)%nat -> (n mod 2 = 0)%nat ->
  exists A, construct_a g w n "sameshift" = Ok A /\ s_tag A = g /\ s_rows A = n /\ s_cols A = n /\
    (forall k c, (k < n / 2)%nat -> (c < n)%nat -> mget A k c = shifted (dec_lo w) L k c /\ mget A (n / 2 + k) c = shifted (dec_hi w) L k c) /\
    (forall k, (k < n / 2)%nat -> complete_row L n k -> forall j, (j < n)%nat ->
       dot n (mget A k) (mget A j) = delta k j /\ dot n (mget A (n / 2 + k)%nat) (mget A j) = delta (n / 2 + k) j).
Proof.
  intros B Hn Hne. destruct (construct_a_ok g w n L B Hn Hne) as (A & EA & A1 & A2 & A3 & A4 & A5 & A6).
  pose proof (Nat.div_mod n 2 ltac:(lia)) as Dn. rewrite Hne in Dn.
  assert (Ku : forall k, (k < n / 2)%nat -> fsel w n k = dec_lo w /\ ksel n k = k).
  { intros k Hk. unfold fsel, ksel. destruct (Nat.ltb_spec k (n / 2)); [auto|lia]. }
  assert (Kd : forall k, (k < n / 2)%nat -> fsel w n (n / 2 + k)%nat = dec_hi w /\ ksel n (n / 2 + k) = k).
  { intros k Hk. unfold fsel, ksel. destruct (Nat.ltb_spec (n / 2 + k) (n / 2)); [lia|]. split; [reflexivity|lia]. }
  exists A. repeat (split; [assumption|]). split.
  - intros k c Hk Hc. rewrite !A5 by lia. destruct (Ku k Hk) as [-> ->], (Kd k Hk) as [-> ->]. split; reflexivity.
  - intros k Hk [C1 C2] j Hj. split.
    + rewrite (dot_ext n _ (rowv (fsel w n k) L (ksel n k)) _ (rowv (fsel w n j) L (ksel n j))) by (intros; apply A5; lia).
      apply raw_dot; auto; try lia; destruct (Ku k Hk) as [_ ->]; lia.
    + rewrite (dot_ext n _ (rowv (fsel w n (n / 2 + k)) L (ksel n (n / 2 + k))) _ (rowv (fsel w n j) L (ksel n j))) by (intros; apply A5; lia).
      apply raw_dot; auto; try lia; destruct (Kd k Hk) as [_ ->]; lia.
Qed.

Theorem C39_boundary_matrices g w n L method :
  formally_real K -> la_ok LA method -> orthogonal_bank L (dec_lo w) (dec_hi w) (rec_lo w) (rec_hi w) -> boundary_independent L (dec_lo w) (dec_hi w) ->
  (L <= n)%nat -> (n mod 2 = 0)%nat ->
  exists A S, construct_boundary_a LA g w n method = Ok A /\ construct_boundary_s LA g w n method = Ok S /\
    s_tag A = g /\ s_rows A = n /\ s_cols A = n /\ orthogonal n (mget A) /\
    s_tag S = g /\ s_rows S = n /\ s_cols S = n /\ (forall i j, mget S i j = mget A j i) /\
    (forall k c, (k < n / 2)%nat -> (c < n)%nat -> complete_row L n k ->
       mget A k c = shifted (dec_lo w) L k c /\ mget A (n / 2 + k) c = shifted (dec_hi w) L k c).
Proof.
  intros HR HLA B HI Hn Hne. destruct (boundary_a_ok LA HD HR g w n L method HLA B HI Hn Hne) as (A & EA & A1 & A2 & A3 & A4 & A5 & A6).
  pose proof (Nat.div_mod n 2 ltac:(lia)) as Dn. rewrite Hne in Dn. pose proof (ob_two _ _ _ _ _ B) as H2.
  exists A, (sp_t A). split; [exact EA|]. split; [rewrite (boundary_s_transpose LA g w n L method B), EA; reflexivity|].
  repeat (split; [assumption|]). split; [intros i j; apply mget_t|].
  intros k c Hk Hc [C1 C2]. split; (rewrite A6; [| lia | lia |unfold truncated]); unfold fsel, ksel.
  - destruct (Nat.ltb_spec k (n / 2)); [reflexivity|lia].
  - destruct (Nat.ltb_spec k (n / 2)); lia.
  - destruct (Nat.ltb_spec (n / 2 + k) (n / 2)); [lia|]. unfold rowv, shifted. repeat f_equal. lia.
  - destruct (Nat.ltb_spec (n / 2 + k) (n / 2)); lia.
Qed.

(** ** When the independence hypothesis holds *)
(** filters of length 2: nothing is truncated *)
Lemma boundary_independent_2 (h g : list K) : boundary_independent 2 h g.
Proof. split; intros a b _ k Hk; change (2 / 4)%nat with 0%nat in Hk; lia. Qed.
(** filters of length 4 and 6: a nonzero minor at each end *)
Lemma det2 (x1 x2 y1 y2 a b : K) : x1 * y2 - x2 * y1 <> 0 -> a * x1 + b * y1 = 0 -> a * x2 + b * y2 = 0 -> a = 0 /\ b = 0.
Proof.
  intros Hd H1 H2. destruct HD as (Hint & _ & _).
  assert (Ha : a * (x1 * y2 - x2 * y1) = 0).
  { transitivity ((a * x1 + b * y1) * y2 - (a * x2 + b * y2) * y1); [ring|]. rewrite H1, H2. ring. }
  assert (Hb : b * (x1 * y2 - x2 * y1) = 0).
  { transitivity ((a * x2 + b * y2) * x1 - (a * x1 + b * y1) * x2); [ring|]. rewrite H1, H2. ring. }
  split; [destruct (Hint _ _ Ha)|destruct (Hint _ _ Hb)]; tauto.
Qed.
Lemma boundary_independent_46 (L : nat) (h g : list K) : (L / 4 = 1)%nat ->
  zget h (Z.of_nat (L / 2)) * zget g (Z.of_nat (L / 2) - 1) - zget h (Z.of_nat (L / 2) - 1) * zget g (Z.of_nat (L / 2)) <> 0 ->
  boundary_independent L h g.
Proof.
  intros HL Hd. assert (H4 : (4 <= L)%nat) by (apply Nat.div_str_pos_iff; lia).
  split; intros a b H k Hk; rewrite HL in *; assert (k = 0%nat) by lia; subst k.
  - pose proof (H 0%nat ltac:(lia)) as H0. pose proof (H 1%nat ltac:(lia)) as H1. cbn [sumf] in H0, H1.
    replace (Z.of_nat (L / 2) + 2 * Z.of_nat 0 - Z.of_nat 0)%Z with (Z.of_nat (L / 2)) in H0 by lia.
    replace (Z.of_nat (L / 2) + 2 * Z.of_nat 0 - Z.of_nat 1)%Z with (Z.of_nat (L / 2) - 1)%Z in H1 by lia.
    apply (det2 _ _ _ _ _ _ Hd); [rewrite <- H0; ring|rewrite <- H1; ring].
  - pose proof (H 1%nat ltac:(lia)) as H0. pose proof (H 0%nat ltac:(lia)) as H1. cbn [sumf] in H0, H1.
    replace (Z.of_nat (L / 2) - 1 - 2 * Z.of_nat 0 + Z.of_nat 1)%Z with (Z.of_nat (L / 2)) in H0 by lia.
    replace (Z.of_nat (L / 2) - 1 - 2 * Z.of_nat 0 + Z.of_nat 0)%Z with (Z.of_nat (L / 2) - 1)%Z in H1 by lia.
    apply (det2 _ _ _ _ _ _ Hd); [rewrite <- H0; ring|rewrite <- H1; ring].
Qed.
(** conversely, for length 4 with the usual highpass filter (alternating flip), two zero middle taps make the first row of either half
    dependent *)
Lemma boundary_dependent_4 (h0 h3 : K) : h0 <> 0 -> ~ boundary_independent 4 [h0; 0; 0; h3] [h3; 0; 0; - h0].
Proof.
  intros Hh [Hl _]. specialize (Hl (fun _ => h3) (fun _ => - h0)). change (4 / 4)%nat with 1%nat in Hl. change (4 / 2)%nat with 2%nat in Hl.
  destruct (Hl) with (k := 0%nat) as [_ Hb]; [|lia|].
  - intros c Hc. cbn [sumf]. destruct (Nat.eq_dec c 3) as [->|Hc3].
    + rewrite !zget_neg by lia. ring.
    + replace (Z.of_nat 2 + 2 * Z.of_nat 0 - Z.of_nat c)%Z with (Z.of_nat (2 - c)) by lia. rewrite !zget_nat.
      do 3 (destruct c as [|c]; [cbn [Nat.sub nth]; ring|]). lia.
  - apply Hh. transitivity (- - h0); [ring|]. rewrite Hb. ring.
Qed.
End PO.
