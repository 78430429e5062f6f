(** Real filter banks meeting the hypotheses of the boundary-wavelet theorems: Haar and Daubechies-4, with both
    orthogonalisation methods; and an orthogonal bank that does not meet the independence hypothesis. *)
From Coq Require Import List Arith ZArith Lia Bool String Reals Lra.
From Verif Require Import Base Sums Tensor TensorFacts Util Accept Sparse SparseFacts SparseConv SpecMat SparseMM LinAlg GramSchmidt Mat1 MatOrth Boundary PropsOrth RealLA.
Import ListNotations.

Lemma RLA_ok method : orth_supported method = true -> la_ok RLA method.
Proof.
  unfold orth_supported. intros H. apply orb_true_iff in H. destruct H as [H|H]; apply String.eqb_eq in H; subst method.
  - left. split; [reflexivity|exact RLA_qr].
  - right. split; [reflexivity|]. split; [exact RK_formally_real|]. split; [exact RLA_div|exact RLA_sqrt].
Qed.
(** the correlation vanishes for lags of at least the filter length *)
Lemma corr_far {K : CRing} (f f' : list K) (d : Z) : (Z.of_nat (List.length f') <= d \/ d <= - Z.of_nat (List.length f))%Z -> corr f f' d = kzero.
Proof.
  intros H. unfold corr. apply sumf_zero. intros j Hj.
  assert (E : zget f' (Z.of_nat j + d) = kzero).
  { destruct H as [H|H]; [apply zget_big; lia|apply zget_neg; lia]. }
  rewrite E. pose proof (cr_th K) as T. destruct T. assert (A : forall x : K, kmul x kzero = kzero).
  { intros x. rewrite <- (Radd_0_l (kmul x kzero)), <- (Ropp_def (kmul x kzero)) at 1. rewrite (Radd_comm (kmul x kzero) (kopp _)), <- Radd_assoc.
    rewrite (Rmul_comm x kzero), <- Rdistr_l, Radd_0_l, Radd_comm, Ropp_def. reflexivity. }
  apply A.
Qed.
Definition r2 : RK := (/ sqrt 2)%R.
Lemma r2_sq : (r2 * r2 = / 2)%R.
Proof. unfold r2. rewrite <- Rinv_mult by idtac. rewrite sqrt_sqrt by lra. reflexivity. Qed.
Definition haar : wavelet RK := mkWav (K := RK) [r2; r2] [(- r2)%R; r2] [r2; r2] [r2; (- r2)%R].
Definition s3 : R := sqrt 3.
Definition q8 : R := (/ (4 * sqrt 2))%R.
Definition d4l : list RK := [((1 - s3) * q8)%R; ((3 - s3) * q8)%R; ((3 + s3) * q8)%R; ((1 + s3) * q8)%R].
Definition d4h : list RK := [(- ((1 + s3) * q8))%R; ((3 + s3) * q8)%R; (- ((3 - s3) * q8))%R; ((1 - s3) * q8)%R].
Definition db2 : wavelet RK := mkWav (K := RK) d4l d4h (rev d4l) (rev d4h).
Lemma s3_sq : (s3 * s3 = 3)%R. Proof. apply sqrt_sqrt. lra. Qed.
Lemma q8_sq : (q8 * q8 = / 32)%R.
Proof. unfold q8. assert (H : (sqrt 2 * sqrt 2 = 2)%R) by (apply sqrt_sqrt; lra). rewrite <- Rinv_mult by idtac. f_equal. nra. Qed.
Section C4.
Context {K : CRing}.
Add Ring Kring : (cr_th K).
Open Scope K_scope.
Lemma corr4 (a b c d a' b' c' d' : K) (k : Z) : corr [a; b; c; d] [a'; b'; c'; d'] (2 * k) =
  if Z.eqb k 0 then a * a' + b * b' + c * c' + d * d' else if Z.eqb k 1 then a * c' + b * d' else if Z.eqb k (-1) then c * a' + d * b' else 0.
Proof.
  destruct (Z.eqb_spec k 0) as [->|H0]; [cbv -[kadd kmul kzero kone kopp ksub car]; ring|].
  destruct (Z.eqb_spec k 1) as [->|H1]; [cbv -[kadd kmul kzero kone kopp ksub car]; ring|].
  destruct (Z.eqb_spec k (-1)) as [->|H2]; [cbv -[kadd kmul kzero kone kopp ksub car]; ring|].
  apply corr_far. cbn [List.length]. lia.
Qed.
Lemma corr2 (a b a' b' : K) (k : Z) : corr [a; b] [a'; b'] (2 * k) = if Z.eqb k 0 then a * a' + b * b' else 0.
Proof.
  destruct (Z.eqb_spec k 0) as [->|H0]; [cbv -[kadd kmul kzero kone kopp ksub car]; ring|]. apply corr_far. cbn [List.length]. lia.
Qed.
Lemma bank4 (a b c d : K) : a * a + b * b + c * c + d * d = 1 -> a * c + b * d = 0 ->
  orthogonal_bank 4 [a; b; c; d] [- d; c; - b; a] (rev [a; b; c; d]) (rev [- d; c; - b; a]).
Proof.
  intros H1 H2. constructor; try reflexivity; try lia; intros k; rewrite corr4; destruct (Z.eqb_spec k 0) as [->|H0]; [exact H1| | | | |].
  - destruct (Z.eqb k 1); [exact H2|]. destruct (Z.eqb k (-1)); [|reflexivity]. rewrite <- H2. ring.
  - rewrite <- H1. ring.
  - destruct (Z.eqb k 1); [rewrite <- H2; ring|]. destruct (Z.eqb k (-1)); [|reflexivity]. rewrite <- H2. ring.
  - ring.
  - destruct (Z.eqb k 1); [ring|]. destruct (Z.eqb k (-1)); [ring|reflexivity].
Qed.
Lemma bank2 (a b : K) : a * a + b * b = 1 -> orthogonal_bank 2 [a; b] [- b; a] (rev [a; b]) (rev [- b; a]).
Proof.
  intros H. constructor; try reflexivity; try lia; intros k; rewrite corr2; destruct (Z.eqb k 0); try reflexivity; [exact H|rewrite <- H; ring|ring].
Qed.
End C4.

Lemma haar_ok : orthogonal_bank 2 (dec_lo haar) (dec_hi haar) (rec_lo haar) (rec_hi haar).
Proof. apply (bank2 (K := RK) r2 r2). change (r2 * r2 + r2 * r2 = 1)%R. rewrite r2_sq. lra. Qed.
Lemma haar_independent : boundary_independent 2 (dec_lo haar) (dec_hi haar).
Proof. apply boundary_independent_2. Qed.
Lemma db2_ok : orthogonal_bank 4 (dec_lo db2) (dec_hi db2) (rec_lo db2) (rec_hi db2).
Proof.
  apply (bank4 (K := RK)).
  - change ((1 - s3) * q8 * ((1 - s3) * q8) + (3 - s3) * q8 * ((3 - s3) * q8) + (3 + s3) * q8 * ((3 + s3) * q8) + (1 + s3) * q8 * ((1 + s3) * q8) = 1)%R.
    transitivity ((20 + 4 * (s3 * s3)) * (q8 * q8))%R; [ring|]. rewrite s3_sq, q8_sq. lra.
  - change ((1 - s3) * q8 * ((3 + s3) * q8) + (3 - s3) * q8 * ((1 + s3) * q8) = 0)%R.
    transitivity ((6 - 2 * (s3 * s3)) * (q8 * q8))%R; [ring|]. rewrite s3_sq, q8_sq. lra.
Qed.
Lemma db2_independent : boundary_independent 4 (dec_lo db2) (dec_hi db2).
Proof.
  apply (boundary_independent_46 RK_domain); [reflexivity|].
  change ((3 + s3) * q8 * ((3 + s3) * q8) - (3 - s3) * q8 * (- ((3 - s3) * q8)) <> 0)%R.
  intros H. assert (E : ((18 + 2 * (s3 * s3)) * (q8 * q8) = 0)%R) by (rewrite <- H; ring). rewrite s3_sq, q8_sq in E. lra.
Qed.
(** both matrices exist for the Daubechies filters of length 4 at every even length from 4 on, with either method *)
Theorem ex_C39_db2 g n method : (4 <= n)%nat -> (n mod 2 = 0)%nat -> orth_supported method = true ->
  exists A S, construct_boundary_a RLA g db2 n method = Ok A /\ construct_boundary_s RLA g db2 n method = Ok S /\
    orthogonal n (mget A) /\ forall i j, mget S i j = mget A j i.
Proof.
  intros Hn He Hm. destruct (C39_boundary_matrices RLA RK_domain g db2 n 4 method RK_formally_real (RLA_ok method Hm) db2_ok db2_independent Hn He)
    as (A & S & E1 & E2 & _ & _ & _ & H & _ & _ & _ & H' & _). exists A, S. auto.
Qed.
(** an orthogonal bank whose truncated rows are dependent: the independence hypothesis is not redundant *)
Theorem C39_independence_not_automatic : exists h g, orthogonal_bank 4 h g (rev h) (rev g) /\ ~ boundary_independent (K := RK) 4 h g.
Proof.
  exists [r2; kzero; kzero; r2], [kopp r2; kzero; kopp kzero; r2]. split.
  - apply (bank4 (K := RK)).
    + change (r2 * r2 + 0 * 0 + 0 * 0 + r2 * r2 = 1)%R. rewrite r2_sq. lra.
    + change (r2 * 0 + 0 * r2 = 0)%R. lra.
  - intros [Hl _]. enough (Hx : (1%R : RK) = kzero) by exact (R1_neq_R0 Hx).
    refine (proj1 (Hl (fun _ => 1%R : RK) (fun _ => 1%R : RK) _ 0%nat _)); [|cbn; lia].
    intros c Hc. change (4 / 4)%nat with 1%nat. change (4 / 2)%nat with 2%nat. cbn [sumf].
    destruct (Nat.eq_dec c 3) as [->|H3]; [rewrite !zget_neg by lia; change (0 + (1 * 0 + 1 * 0) = 0)%R; lra|].
    replace (Z.of_nat 2 + 2 * Z.of_nat 0 - Z.of_nat c)%Z with (Z.of_nat (2 - c)) by lia. rewrite !zget_nat.
    destruct c as [|[|[|c]]]; cbn [Nat.sub nth]; [change (0 + (1 * 0 + 1 * (- 0)) = 0)%R; lra|change (0 + (1 * 0 + 1 * 0) = 0)%R; lra|change (0 + (1 * r2 + 1 * (- r2)) = 0)%R; lra|lia].
Qed.

(** C38 on a 3 x 3 matrix: one complete row (a single stored entry), two incomplete rows *)
Definition ex38 : smat RK := mkS (K := RK) (float64, cpu) 3 3 [(0, 0, 3%R); (0, 1, 4%R); (1, 0, 1%R); (1, 1, 2%R); (2, 2, 1%R)].
Example ex_C38 : incomplete_rows ex38 1 = [0; 1] /\ exists r, orthogonalize RLA ex38 1 "gramschmidt" = Ok r /\ orthonormal_rows 3 3 (mget r) /\ (forall j, mget r 2 j = mget ex38 2 j).
Proof.
  split; [reflexivity|].
  assert (V : forall i j, (i < 3)%nat -> (j < 3)%nat -> mget ex38 i j = nth j (nth i [[3%R; 4%R; 0%R]; [1%R; 2%R; 0%R]; [0%R; 0%R; 1%R]] []) 0%R).
  { intros i j Hi Hj. destruct i as [|[|[|i]]]; [| | |lia]; (destruct j as [|[|[|j]]]; [| | |lia]); unfold mget, ent_get, ex38; cbn [s_ent sumL at_pos fst snd Nat.eqb andb nth];
      change (kadd (c := RK)) with Rplus; change (kzero (c := RK)) with 0%R; lra. }
  destruct (C38_gramschmidt RLA RK_domain ex38 3 1 RK_formally_real RLA_div RLA_sqrt) as (r & E & _ & _ & _ & H1 & H2 & _).
  - repeat constructor.
  - reflexivity.
  - reflexivity.
  - intros i k Hi Hk Hn. change (incomplete_rows ex38 1) with [0; 1] in Hn. assert (i = 2%nat) by (cbn in Hn; lia). subst i.
    unfold dot. cbn [sumf]. rewrite !V by lia. destruct k as [|[|[|k]]]; [| | |lia]; cbn [nth]; unfold delta; cbn [Nat.eqb];
      change (kadd (c := RK)) with Rplus; change (kmul (c := RK)) with Rmult; change (kzero (c := RK)) with 0%R; change (kone (c := RK)) with 1%R; lra.
  - change (incomplete_rows ex38 1) with [0; 1]. intros c Hc. pose proof (Hc 0 ltac:(lia)) as H0. pose proof (Hc 1 ltac:(lia)) as H1. cbn [sumL] in H0, H1. rewrite !V in H0, H1 by lia.
    cbn [nth] in H0, H1. change (kadd (c := RK)) with Rplus in *. change (kmul (c := RK)) with Rmult in *. change (kzero (c := RK)) with 0%R in *.
    intros i [<-|[<-|[]]]; lra.
  - exists r. split; [exact E|]. split; [exact H2|]. intros j. apply H1. reflexivity.
Qed.
