(** C48, C49: vanishing losses of learnable filter banks. *)
From Coq Require Import List Arith ZArith Lia Bool String.
From Verif Require Import Base Sums Tensor TensorFacts Util Perm Plumb Spec Conv1 Conv2 Conv3 CoreFacts Props1 Props2 SpecMat PRKernel Learn LearnFacts Polyphase Examples RealLA ExReal.
Import ListNotations.

Section Props.
Context {K : CRing}.
Add Ring Kring : (cr_th K).
Implicit Type w : wavelet K.
Local Open Scope K_scope.

(** four filters of one length L *)
Definition same_length w (L : nat) : Prop :=
  List.length (dec_lo w) = L /\ List.length (dec_hi w) = L /\ List.length (rec_lo w) = L /\ List.length (rec_hi w) = L.

(** the PR identity H0 F0 + H1 F1 = 2 z^(L-1) and the alias identity H0(-z) F0 + H1(-z) F1 = 0, coefficient by coefficient *)
Definition no_distortion w (L : nat) : Prop := forall k,
  convc (dec_lo w) (rec_lo w) k + convc (dec_hi w) (rec_hi w) k = if Nat.eqb k (L - 1) then 1 + 1 else 0.
Definition no_aliasing w : Prop := forall k, aliasc (dec_lo w) (rec_lo w) k + aliasc (dec_hi w) (rec_hi w) k = 0.

(** ** C48: each loss is computed, and vanishes iff its identity holds *)
Theorem C48_pr_loss w L : formally_real K -> (0 < L)%nat -> same_length w L ->
  exists l p t, perfect_reconstruction_loss w = Ok (l, p, t) /\ (l = 0 <-> no_distortion w L).
Proof.
  intros HR HL Hl. rewrite (pr_loss_ok w L HL Hl). do 3 eexists. split; [reflexivity|].
  rewrite (one_sum HR (2 * L - 1) (fun k => distort w k - (if Nat.eqb k (L - 1) then 1 + 1 else 0))). split.
  - intros H k. change (distort w k = if Nat.eqb k (L - 1) then 1 + 1 else 0).
    destruct (Nat.lt_ge_cases k (2 * L - 1)) as [Hk|Hk]; [apply sub_zero; apply (H k Hk)|].
    rewrite (distort_big w L) by assumption. destruct (Nat.eqb_spec k (L - 1)); [lia|reflexivity].
  - intros H k _. apply sub_zero. apply (H k).
Qed.
Theorem C48_alias_loss w L : formally_real K -> (0 < L)%nat -> same_length w L ->
  exists l p t, alias_cancellation_loss w = Ok (l, p, t) /\ (l = 0 <-> no_aliasing w).
Proof.
  intros HR HL Hl. rewrite (ac_loss_ok w L HL Hl). do 3 eexists. split; [reflexivity|]. rewrite (one_sum HR (2 * L - 1) (aliast w)). split.
  - intros H k. destruct (Nat.lt_ge_cases k (2 * L - 1)) as [Hk|Hk]; [apply (H k Hk)|]. apply (aliast_big w L); assumption.
  - intros H k _. apply (H k).
Qed.
Theorem C48_product_filter_loss w L : formally_real K -> Nat.even L = true -> (2 <= L)%nat -> same_length w L ->
  exists l, product_filter_loss w = Ok l /\ (l = 0 <-> pr_bank (dec_lo w) (dec_hi w) (rec_lo w) (rec_hi w) L).
Proof.
  intros HR He HL Hl. unfold product_filter_loss. rewrite (pr_loss_ok w L) by (assumption || lia). rewrite (ac_loss_ok w L) by (assumption || lia). cbn [rbind fst].
  eexists. split; [reflexivity|]. destruct Hl as (H1 & H2 & H3 & H4). assert (Hl : lens w L) by (repeat split; assumption). split.
  - intros H. apply (two_sums HR) in H as [A B].
    apply pr_bank_intro; try assumption.
    + intros k Hk. apply sub_zero. apply (A k Hk).
  - intros H. rewrite (proj2 (one_sum HR _ (fun k => distort w k - (if Nat.eqb k (L - 1) then 1 + 1 else 0)))), (proj2 (one_sum HR _ (aliast w))); [ring| |].
    + intros k _. apply (pr_alias _ _ _ _ _ H k).
    + intros k _. apply sub_zero. apply (pr_distortion _ _ _ _ _ H k).
Qed.
(** zero product-filter loss: the transforms with the learned filters invert each other *)
Theorem C48_zero_loss_invertible w L m : formally_real K -> Nat.even L = true -> (2 <= L)%nat -> same_length w L ->
  product_filter_loss w = Ok 0 ->
  (forall x level axis c, wf x -> wavedec x w (Some (mode_name m)) level axis = Ok c ->
     exists y, waverec (pc_items c) w (AxInt axis) = Ok y /\ agrees_on x y) /\
  (forall x level h c, wf x -> wavedec2 x w (Some (mode_name m)) level h = Ok c ->
     exists y, waverec2 c w h = Ok y /\ agrees_on x y) /\
  (forall x level h c, wf x -> wavedec3 x w (Some (mode_name m)) level h = Ok c -> (2 <= List.length (pc_items c))%nat ->
     exists y, waverec3 c w h = Ok y /\ agrees_on x y).
Proof.
  intros HR He HL Hl H0. destruct (C48_product_filter_loss w L HR He HL Hl) as (l & E & Hi). rewrite E in H0. injection H0 as ->.
  pose proof (proj1 Hi eq_refl) as B. pose proof (real_cancel2 HR) as Hc. split; [|split].
  - intros x level axis c Hw H. apply (C01_perfect_reconstruction x w m L level axis c); assumption.
  - intros x level h c Hw H. destruct (C13_perfect_reconstruction_2d x w m L level h c Hc B Hw H) as (ax & y & _ & Hy & Ha & _). eauto.
  - intros x level h c Hw H Hn. destruct (C15_perfect_reconstruction_3d x w m L level h c Hc B Hw H Hn) as (ax & y & _ & Hy & Ha & _). eauto.
Qed.
(** the product-filter variant: the synthesis filters are the modulated analysis filters; then nothing is aliased *)
Theorem C48_pf_alias_loss w L : formally_real K -> (0 < L)%nat -> same_length w L ->
  exists l e1 e2, pf_alias_cancellation_loss w = Ok (l, e1, e2) /\
    (l = 0 <-> forall i, (i < L)%nat ->
       nth i (rec_lo w) 0 = (if Nat.even (L - 1 - i) then nth i (dec_hi w) 0 else - nth i (dec_hi w) 0) /\
       nth i (rec_hi w) 0 = - (if Nat.even (L - 1 - i) then nth i (dec_lo w) 0 else - nth i (dec_lo w) 0)) /\
    (l = 0 -> no_aliasing w).
Proof.
  intros HR HL Hl. destruct (pf_loss_ok HR w L Hl) as (l & e1 & e2 & E & Hi). exists l, e1, e2. split; [exact E|]. split; [exact Hi|].
  intros H0. pose proof (proj1 Hi H0) as G. clear Hi E H0. destruct Hl as (H1 & H2 & H3 & H4). intros k. unfold aliasc.
  rewrite (sumf_rev (S k) (fun i => sgn i (nth i (dec_hi w) 0 * nth (k - i) (rec_hi w) 0))). rewrite <- sumf_add. apply sumf_zero. intros i Hik.
  replace (S k - 1 - i)%nat with (k - i)%nat by lia. replace (k - (k - i))%nat with i by lia.
  destruct (Nat.lt_ge_cases i L) as [Hi|Hi]; [|rewrite (nth_overflow (dec_lo w)), (nth_overflow (rec_hi w)) by lia; unfold sgn; destruct (Nat.even _), (Nat.even _); ring].
  destruct (Nat.lt_ge_cases (k - i) L) as [Hk|Hk]; [|rewrite (nth_overflow (dec_hi w)), (nth_overflow (rec_lo w)) by lia; unfold sgn; destruct (Nat.even _), (Nat.even _); ring].
  rewrite (proj1 (G (k - i)%nat Hk)), (proj2 (G i Hi)). unfold sgn. rewrite !Nat.even_sub by lia.
  destruct (Nat.even i), (Nat.even k), (Nat.even L); cbn; ring.
Qed.

(** ** C49: orthogonality losses *)
Theorem C49_filter_bank w L : formally_real K -> same_length w L ->
  exists l, filt_bank_orthogonality_loss w = Ok l /\ (l = 0 <-> rec_lo w = rev (dec_lo w) /\ rec_hi w = rev (dec_hi w)).
Proof. intros HR Hl. exact (fb_loss_ok HR w L Hl). Qed.
(** corr f f (2k): the inner product of f with its shift by 2k *)
Theorem C49_low_pass w L : formally_real K -> (0 < L)%nat -> List.length (dec_lo w) = L ->
  exists l, rec_lo_orthogonality_loss w = Ok l /\
    (l = 0 <-> forall k : Z, corr (dec_lo w) (dec_lo w) (2 * k) = if Z.eqb k 0 then 1 else 0).
Proof. intros HR HL H. exact (ro_loss_ok HR w L HL H). Qed.
(** SoftOrthogonalWavelet.wavelet_loss vanishes exactly for the orthogonal filter banks, although it contains no
    orthonormality term: these follow from perfect reconstruction *)
Theorem C49_soft_wavelet_loss w L : formally_real K -> Nat.even L = true -> (2 <= L)%nat -> same_length w L ->
  exists l, soft_wavelet_loss w = Ok l /\ (l = 0 <-> orthogonal_bank L (dec_lo w) (dec_hi w) (rec_lo w) (rec_hi w)).
Proof.
  intros HR He HL Hl. unfold soft_wavelet_loss, product_filter_loss, filt_bank_orthogonality_loss.
  pose proof Hl as (H1 & H2 & H3 & H4).
  rewrite (pr_loss_ok w L) by (assumption || lia). rewrite (ac_loss_ok w L) by (assumption || lia). cbn [rbind fst].
  rewrite !bcast_ok by (rewrite rev_length; congruence). cbn [rbind]. eexists. split; [reflexivity|]. rewrite !sq_sum.
  assert (E1 : List.length (dec_lo w) = List.length (rev (rec_lo w))) by (rewrite rev_length; congruence).
  assert (E2 : List.length (dec_hi w) = List.length (rev (rec_hi w))) by (rewrite rev_length; congruence).
  rewrite !map2_len by assumption. pose proof (diff_zero _ _ E1) as D1. pose proof (diff_zero _ _ E2) as D2.
  assert (R : forall a b : list K, a = rev b <-> b = rev a) by (intros a b; split; intros ->; rewrite rev_involutive; reflexivity).
  set (n := (2 * L - 1)%nat). set (u := fun k => distort w k - (if Nat.eqb k (L - 1) then 1 + 1 else 0)).
  set (v1 := fun i => nth i (map2 ksub (dec_lo w) (rev (rec_lo w))) 0) in *. set (v2 := fun i => nth i (map2 ksub (dec_hi w) (rev (rec_hi w))) 0) in *.
  change (sumf n (fun i => u i * u i) + sumf n (fun i => aliast w i * aliast w i) +
    (sumf (List.length (dec_lo w)) (fun i => v1 i * v1 i) + sumf (List.length (dec_hi w)) (fun i => v2 i * v2 i)) = 0 <->
    orthogonal_bank L (dec_lo w) (dec_hi w) (rec_lo w) (rec_hi w)).
  rewrite H1, H2 in *.
  assert (S4 : sumf n (fun i => u i * u i) + sumf n (fun i => aliast w i * aliast w i) + (sumf L (fun i => v1 i * v1 i) + sumf L (fun i => v2 i * v2 i)) = 0 <->
    (forall i, (i < n)%nat -> u i = 0) /\ (forall i, (i < n)%nat -> aliast w i = 0) /\ (forall i, (i < L)%nat -> v1 i = 0) /\ (forall i, (i < L)%nat -> v2 i = 0)).
  { split.
    - set (f := fun i => if Nat.ltb i n then u i else aliast w (i - n)%nat). set (g := fun i => if Nat.ltb i L then v1 i else v2 (i - L)%nat).
      assert (Ef : sumf n (fun i => u i * u i) + sumf n (fun i => aliast w i * aliast w i) = sumf (n + n) (fun i => f i * f i)).
      { rewrite sumf_app. f_equal; apply sumf_ext; intros i Hi; unfold f; [destruct (Nat.ltb_spec i n); [reflexivity|lia]|].
        destruct (Nat.ltb_spec (n + i) n); [lia|]. replace (n + i - n)%nat with i by lia. reflexivity. }
      assert (Eg : sumf L (fun i => v1 i * v1 i) + sumf L (fun i => v2 i * v2 i) = sumf (L + L) (fun i => g i * g i)).
      { rewrite sumf_app. f_equal; apply sumf_ext; intros i Hi; unfold g; [destruct (Nat.ltb_spec i L); [reflexivity|lia]|].
        destruct (Nat.ltb_spec (L + i) L); [lia|]. replace (L + i - L)%nat with i by lia. reflexivity. }
      rewrite Ef, Eg. intros H. apply (two_sums HR) in H as [A B].
      rewrite (proj2 (one_sum HR (n + n) f) A) in Ef. rewrite (proj2 (one_sum HR (L + L) g) B) in Eg.
      apply (two_sums HR) in Ef as [A1 A2]. apply (two_sums HR) in Eg as [B1 B2]. auto.
    - intros (A & B & C & D). rewrite (proj2 (one_sum HR _ _) A), (proj2 (one_sum HR _ _) B), (proj2 (one_sum HR _ _) C), (proj2 (one_sum HR _ _) D). ring. }
  rewrite S4. split.
  - intros (A & B & C & D). apply D1 in C. apply D2 in D. apply R in C. apply R in D. rewrite C, D. apply (pr_iff_orthogonal _ _ L (real_cancel2 HR)); try assumption.
    rewrite <- C, <- D. apply pr_bank_intro; try assumption.
    + intros k Hk. apply sub_zero. apply (A k Hk).
  - intros O. pose proof (ob_rec_lo _ _ _ _ _ O) as C. pose proof (ob_rec_hi _ _ _ _ _ O) as D.
    pose proof O as P. rewrite C, D in P. apply (pr_iff_orthogonal _ _ L (real_cancel2 HR)) in P; try assumption. rewrite <- C, <- D in P.
    split; [|split; [|split]].
    + intros k _. apply sub_zero. apply (pr_distortion _ _ _ _ _ P k).
    + intros k _. apply (pr_alias _ _ _ _ _ P k).
    + apply D1. apply R. exact C.
    + apply D2. apply R. exact D.
Qed.
(** hence: zero loss makes the low-pass filter orthonormal to its even shifts *)
Theorem C49_soft_loss_low_pass w L : formally_real K -> Nat.even L = true -> (2 <= L)%nat -> same_length w L ->
  soft_wavelet_loss w = Ok 0 -> rec_lo_orthogonality_loss w = Ok 0 /\ product_filter_loss w = Ok 0.
Proof.
  intros HR He HL Hl H0. destruct (C49_soft_wavelet_loss w L HR He HL Hl) as (l & E & Hi). rewrite E in H0. injection H0 as ->.
  pose proof (proj1 Hi eq_refl) as O. split.
  - destruct (C49_low_pass w L HR ltac:(lia) (proj1 Hl)) as (l & El & Hl'). rewrite El. f_equal. apply Hl'. exact (ob_lo _ _ _ _ _ O).
  - destruct (C48_product_filter_loss w L HR He HL Hl) as (l & El & Hl'). rewrite El. f_equal. apply Hl'.
    pose proof (ob_rec_lo _ _ _ _ _ O) as C. pose proof (ob_rec_hi _ _ _ _ _ O) as D. pose proof O as P. rewrite C, D in P |- *.
    apply (pr_iff_orthogonal _ _ L (real_cancel2 HR)) in P; try assumption; apply Hl.
Qed.
End Props.

(** ** instances *)
Lemma ZK_formally_real : formally_real ZK.
Proof.
  intros n v. assert (G : forall n, (0 <= sumf (K := ZK) n (fun j => kmul (v j) (v j)))%Z).
  { clear. induction n as [|n IH]; cbn in *; [lia|]. pose proof (Z.square_nonneg (v n)). cbn in *. lia. }
  induction n as [|n IH]; intros H j Hj; [lia|]. cbn in H. pose proof (G n) as Gn. cbn in Gn. pose proof (Z.square_nonneg (v n)) as Gs. cbn in Gs.
  assert (E1 : sumf (K := ZK) n (fun j => (v j * v j)%Z) = 0%Z) by (cbn in *; lia). assert (E2 : (v n * v n = 0)%Z) by (cbn in *; lia).
  destruct (Nat.eq_dec j n) as [->|]; [apply Z.mul_eq_0 in E2; tauto|]. apply IH; [exact E1|lia].
Qed.
(** a biorthogonal integer bank: the product-filter loss vanishes, the orthogonality loss does not *)
Theorem ex_C48 : product_filter_loss exW4 = Ok (0%Z : ZK) /\ same_length exW4 4 /\
  match filt_bank_orthogonality_loss exW4 with Ok l => Z.ltb 0 l = true | Raise _ => False end.
Proof. split; [|split]; [vm_compute; reflexivity|repeat split|vm_compute; reflexivity]. Qed.
(** Daubechies-4 over the reals: all losses vanish *)
Theorem ex_C49 : soft_wavelet_loss db2 = Ok (kzero (c := RK)) /\ rec_lo_orthogonality_loss db2 = Ok (kzero (c := RK)) /\ product_filter_loss db2 = Ok (kzero (c := RK)).
Proof.
  assert (Hl : same_length db2 4) by (repeat split). 
  assert (H : soft_wavelet_loss db2 = Ok (kzero (c := RK))).
  { destruct (C49_soft_wavelet_loss db2 4 RK_formally_real eq_refl ltac:(lia) Hl) as (l & E & Hi). rewrite E. f_equal. apply Hi. exact db2_ok. }
  split; [exact H|]. apply (C49_soft_loss_low_pass db2 4 RK_formally_real eq_refl ltac:(lia) Hl H).
Qed.
