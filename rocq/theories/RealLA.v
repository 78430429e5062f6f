(** The real numbers as an instance of the hypotheses of the matrix theorems: R has no zero divisors, sums of squares
    vanish only trivially, and division, square root and QR satisfy the specifications used.  This file depends on
    the axioms of Coq's standard library of real numbers; nothing else depends on it except the examples. *)
From Coq Require Import List Arith ZArith Lia Bool String Ring Reals Lra.
From Verif Require Import Base Sums Tensor TensorFacts Accept Sparse SparseFacts SparseConv SpecMat SparseMM LinAlg GramSchmidt.
Import ListNotations.

(** ** a QR decomposition from Gram-Schmidt, in any ring with square roots and division *)
Section GQ.
Context {K : CRing}.
Add Ring Kring : (cr_th K).
Open Scope K_scope.
Variable LA : linalg K.
Hypothesis HD : domain K.
Hypothesis HR : formally_real K.
Hypothesis Hdiv : la_div_ok LA.
Hypothesis Hsqrt : la_sqrt_ok LA.

Definition gs_input (t : tensor K) (n T : nat) : smat K :=
  mkS (ttag t) n n (flat_map (fun a => map (fun j => (a, j, get t [j; a])) (seq 0 n)) (seq 0 T)).
Definition gs_qr (t : tensor K) : tensor K :=
  match shp t with
  | [n; T] => match gs_loop LA (gs_input t n T) [] (seq 0 T) with
              | Ok r => tmake (ttag t) [n; T] (fun idx => match idx with [i; j] => mget r j i | _ => 0 end)
              | Raise _ => t end
  | _ => t end.

Lemma gs_input_get t n T a j : (a < T)%nat -> (j < n)%nat -> mget (gs_input t n T) a j = get t [j; a].
Proof.
  intros Ha Hj. unfold mget, ent_get, gs_input. cbn [s_ent]. rewrite sumL_flat_map, sumL_seq. rewrite (sumf_single T a); [|exact Ha|].
  - rewrite sumL_map, sumL_seq. rewrite (sumf_single n j); [|exact Hj|].
    + unfold at_pos. cbn [fst snd]. rewrite !Nat.eqb_refl. reflexivity.
    + intros k Hk Hne. unfold at_pos. cbn [fst snd]. destruct (Nat.eqb_spec k j); [contradiction|]. rewrite andb_false_r. reflexivity.
  - intros k Hk Hne. rewrite sumL_map. apply sumL_zero. intros x _. unfold at_pos. cbn [fst snd]. destruct (Nat.eqb_spec k a); [contradiction|]. reflexivity.
Qed.
Lemma gs_input_wf t n T : (T <= n)%nat -> s_wf (gs_input t n T).
Proof.
  intros HT. unfold s_wf, gs_input. cbn [s_ent s_rows s_cols]. apply Forall_forall. intros e He. apply in_flat_map in He. destruct He as (i & Hi & He).
  apply in_map_iff in He. destruct He as (j & <- & Hj). apply in_seq in Hi, Hj. apply in_size_spec. cbn [fst snd]. lia.
Qed.
Theorem gs_qr_ok q : la_qr q = gs_qr -> la_qr_ok q.
Proof.
  intros Eq t n T Hs Hw Hind. rewrite Eq. unfold gs_qr. rewrite Hs.
  assert (HT : (T <= n)%nat).
  { destruct (Nat.le_gt_cases T n) as [|Hlt]; [assumption|exfalso].
    destruct (dependent_columns HD n T (fun i j => get t [i; j]) Hlt) as (c & (j & Hj & Hc) & Hz). apply Hc.
    apply (Hind c); [|apply in_seq; lia]. intros i Hi. rewrite sumL_seq. rewrite <- (Hz i Hi). apply sumf_ext. intros k Hk. ring. }
  set (m := gs_input t n T).
  assert (Hm : independent n (seq 0 T) (mget m)).
  { intros c Hc. apply Hind. intros j Hj. rewrite <- (Hc j Hj). apply sumL_ext. intros a Ha. apply in_seq in Ha. unfold m. rewrite gs_input_get by lia. reflexivity. }
  destruct (gs_loop_ok LA HD HR Hdiv Hsqrt n (seq 0 T) [] m) as (r & Er & _ & Rr & Rc & Rw & _ & Ron & _ & Rsp).
  - apply gs_input_wf, HT.
  - reflexivity.
  - reflexivity.
  - apply seq_NoDup.
  - intros i Hi. apply in_seq in Hi. lia.
  - intros i k [].
  - exact Hm.
  - rewrite Er. cbn [app] in Ron, Rsp. split; [reflexivity|]. split; [apply wf_make|]. split; [reflexivity|].
    assert (G : forall i a, (i < n)%nat -> (a < T)%nat -> get (tmake (ttag t) [n; T] (fun idx => match idx with [i; j] => mget r j i | _ => 0 end)) [i; a] = mget r a i).
    { intros i a Hi Ha. rewrite get_make; [reflexivity|]. repeat constructor; assumption. }
    split.
    + intros a b Ha Hb. rewrite <- (Ron a b) by (apply in_seq; lia). apply dot_ext; intros i Hi; apply G; assumption.
    + assert (Hch : forall j, exists c : nat -> K, (j < T)%nat -> forall i, (i < n)%nat -> mget m j i = sumL (seq 0 T) (fun k => c k * mget r k i)).
      { intros j. destruct (Nat.lt_ge_cases j T) as [Hj|Hj]; [|exists (fun _ => 0); lia].
        destruct (Rsp j ltac:(apply in_seq; lia)) as [c Hc]. exists c. intros _. exact Hc. }
      assert (Hfin : forall T', exists R : nat -> nat -> K, forall j, (j < T')%nat -> (j < T)%nat -> forall i, (i < n)%nat -> mget m j i = sumL (seq 0 T) (fun k => R k j * mget r k i)).
      { induction T' as [|T' [R HRR]]; [exists (fun _ _ => 0); lia|]. destruct (Hch T') as [c Hc]. exists (fun k j => if Nat.eqb j T' then c k else R k j).
        intros j Hj HjT i Hi. destruct (Nat.eqb_spec j T') as [->|Hne]; [apply Hc; assumption|apply HRR; lia]. }
      destruct (Hfin T) as [R HRR]. exists R. intros i j Hi Hj. specialize (HRR j Hj Hj i Hi). unfold m in HRR. rewrite gs_input_get in HRR by assumption.
      rewrite HRR, sumL_seq. apply sumf_ext. intros k Hk. rewrite G by assumption. ring.
Qed.
End GQ.

(** ** the reals *)
Definition RK : CRing := mkCRing R 0%R 1%R Rplus Rmult Rminus Ropp (mk_rt 0%R 1%R Rplus Rmult Rminus Ropp eq Rplus_0_l Rplus_comm (fun x y z => eq_sym (Rplus_assoc x y z)) Rmult_1_l Rmult_comm (fun x y z => eq_sym (Rmult_assoc x y z)) Rmult_plus_distr_r (fun x y => eq_refl) Rplus_opp_r).
Lemma RK_domain : domain RK.
Proof.
  repeat split.
  - intros a b H. apply Rmult_integral, H.
  - apply R1_neq_R0.
  - intros a. destruct (Req_EM_T a 0) as [->|H]; [left; reflexivity|right; exact H].
Qed.
Lemma RK_sumsq_nonneg n (v : nat -> RK) : (0 <= sumf (K := RK) n (fun j => kmul (v j) (v j)))%R.
Proof. induction n as [|n IH]; cbn [sumf]; [apply Rle_refl|]. apply Rplus_le_le_0_compat; [exact IH|]. apply Rle_0_sqr. Qed.
Lemma RK_formally_real : formally_real RK.
Proof.
  intros n v. induction n as [|n IH]; intros H j Hj; [lia|]. cbn [sumf] in H.
  pose proof (RK_sumsq_nonneg n v) as H1. pose proof (Rle_0_sqr (v n)) as H2. unfold Rsqr in H2.
  change (sumf (K := RK) n (fun j => kmul (v j) (v j)) + v n * v n = 0)%R in H.
  destruct (Nat.eq_dec j n) as [->|Hne].
  - apply Rsqr_0_uniq. unfold Rsqr. apply Rle_antisym; [|exact H2]. lra.
  - apply IH; [|lia]. apply Rle_antisym; [|exact H1]. change (kzero (c := RK)) with 0%R. lra.
Qed.
Definition RLA0 : linalg RK := mkLA (K := RK) (fun t => t) sqrt Rdiv.
Definition RLA : linalg RK := mkLA (K := RK) (gs_qr RLA0) sqrt Rdiv.
Lemma RLA_div : la_div_ok RLA.
Proof. intros a b Hb. cbn. unfold Rdiv. rewrite Rmult_assoc, Rinv_l by exact Hb. apply Rmult_1_r. Qed.
Lemma RLA_sqrt : la_sqrt_ok RLA.
Proof. intros n v. apply sqrt_sqrt. apply RK_sumsq_nonneg. Qed.
Lemma RLA_qr : la_qr_ok RLA.
Proof. apply (gs_qr_ok RLA0 RK_domain RK_formally_real); [exact RLA_div|exact RLA_sqrt|reflexivity]. Qed.
