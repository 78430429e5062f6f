(** Concrete filter banks and tensors (over the integers) used to show that the hypotheses of
    the theorems are met by non-trivial instances. *)
From Coq Require Import List Arith ZArith Lia Bool String.
From Verif Require Import Base Sums Tensor TensorFacts Util Spec.
Import ListNotations.

Section Chk.
Context {K : CRing}.
Add Ring Kring : (cr_th K).
Local Open Scope K_scope.

Lemma convc_big (f g : list K) L k : (List.length f <= L)%nat -> (List.length g <= L)%nat -> (2 * L - 1 <= k)%nat -> (1 <= L)%nat -> convc f g k = 0.
Proof.
  intros Hf Hg Hk HL. unfold convc. apply sumf_zero. intros i Hi.
  destruct (Nat.lt_ge_cases i L) as [H|H].
  - rewrite (nth_overflow g) by lia. ring.
  - rewrite (nth_overflow f) by lia. ring.
Qed.
Lemma sgn_zero i : sgn (K := K) i 0 = 0.
Proof. unfold sgn. destruct (Nat.even i); ring. Qed.
Lemma aliasc_big (f g : list K) L k : (List.length f <= L)%nat -> (List.length g <= L)%nat -> (2 * L - 1 <= k)%nat -> (1 <= L)%nat -> aliasc f g k = 0.
Proof.
  intros Hf Hg Hk HL. unfold aliasc. apply sumf_zero. intros i Hi.
  destruct (Nat.lt_ge_cases i L) as [H|H].
  - rewrite (nth_overflow g) by lia. transitivity (sgn (K := K) i 0); [f_equal; ring|apply sgn_zero].
  - rewrite (nth_overflow f) by lia. transitivity (sgn (K := K) i 0); [f_equal; ring|apply sgn_zero].
Qed.

(** it suffices to check k < 2L - 1 *)
Lemma pr_bank_intro dlo dhi rlo rhi L : List.length dlo = L -> List.length dhi = L -> List.length rlo = L -> List.length rhi = L ->
  Nat.even L = true -> (2 <= L)%nat ->
  (forall k, (k < 2 * L - 1)%nat -> kadd (convc dlo rlo k) (convc dhi rhi k) = if Nat.eqb k (L - 1) then kadd kone kone else kzero) ->
  (forall k, (k < 2 * L - 1)%nat -> kadd (aliasc dlo rlo k) (aliasc dhi rhi k) = kzero) ->
  pr_bank (K := K) dlo dhi rlo rhi L.
Proof.
  intros H1 H2 H3 H4 He HL Hd Ha. split; auto.
  - intros k. destruct (Nat.lt_ge_cases k (2 * L - 1)) as [Hk|Hk]; [auto|].
    rewrite !(convc_big _ _ L) by lia. destruct (Nat.eqb_spec k (L - 1)); [lia|ring].
  - intros k. destruct (Nat.lt_ge_cases k (2 * L - 1)) as [Hk|Hk]; [auto|]. rewrite !(aliasc_big _ _ L) by lia. ring.
Qed.
End Chk.

Lemma ZK_cancel2 : cancel2 ZK.
Proof. intros a b. cbn. lia. Qed.

(** lo = x_even + x_odd, hi = x_odd *)
Definition exW2 : wavelet ZK := mkWav (K := ZK) [1; 1]%Z [1; 0]%Z [1; 0]%Z [-1; 1]%Z.
(** lifting: hi[k] = x[2k-1] + x[2k-2], lo[k] = x[2k] + hi[k] *)
Definition exW4 : wavelet ZK := mkWav (K := ZK) [0; 1; 1; 1]%Z [0; 0; 1; 1]%Z [0; 0; 1; -1]%Z [0; 1; -1; 1]%Z.

Lemma exW2_pr : pr_bank (dec_lo exW2) (dec_hi exW2) (rec_lo exW2) (rec_hi exW2) 2.
Proof.
  apply pr_bank_intro; try reflexivity; try lia; intros k Hk;
  do 3 (destruct k as [|k]; [vm_compute; reflexivity|]); cbn in Hk; lia.
Qed.
Lemma exW4_pr : pr_bank (dec_lo exW4) (dec_hi exW4) (rec_lo exW4) (rec_hi exW4) 4.
Proof.
  apply pr_bank_intro; try reflexivity; try lia; intros k Hk;
  do 7 (destruct k as [|k]; [vm_compute; reflexivity|]); cbn in Hk; lia.
Qed.

Definition f32 : tag := (float32, cpu).
Definition exT (s : list nat) : tensor ZK := mkT (K := ZK) f32 s (map (fun i => Z.of_nat ((i * i + 3 * i) mod 17)) (seq 0 (prodl s))).
Lemma exT_wf s : wf (exT s).
Proof. unfold wf, exT. cbn [dat shp]. rewrite map_length, seq_length. reflexivity. Qed.
