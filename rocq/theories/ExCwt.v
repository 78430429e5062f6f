(** The complex numbers (pairs of reals) with their roots of unity meet the hypotheses of C46 / C47. *)
From Coq Require Import List Arith ZArith QArith Qround Qreals Reals Lra Lia Bool.
From Verif Require Import Base Sums Tensor TensorFacts Learn Cwt SpecCwt CwtFacts PropsCwt Examples.
Import ListNotations.
Local Open Scope R_scope.

Definition CC : Type := (R * R)%type.
Definition cadd (a b : CC) : CC := (fst a + fst b, snd a + snd b).
Definition cmul (a b : CC) : CC := (fst a * fst b - snd a * snd b, fst a * snd b + snd a * fst b).
Definition csub (a b : CC) : CC := (fst a - fst b, snd a - snd b).
Definition copp (a : CC) : CC := (- fst a, - snd a).
Lemma CC_ring : ring_theory (0, 0) (1, 0) cadd cmul csub copp (@eq CC).
Proof.
  constructor; repeat intros [? ?] || intros; unfold cadd, cmul, csub, copp; cbn; f_equal; ring.
Qed.
Definition CK : CRing := mkCRing CC (0, 0) (1, 0) cadd cmul csub copp CC_ring.

Definition croot (n : nat) : CK := (cos (2 * PI / INR n), - sin (2 * PI / INR n)).
Definition CxC : cplx CK := mkCx (K := CK) croot (fun n => (/ INR n, 0)) (fun a : CC => (fst a, - snd a)) (fun a : CC => (fst a, 0)) (fun q => (sqrt (Q2R q), 0)) (fun q => (Q2R q, 0)).

Lemma croot_pow n k : @kpow CK (croot n) k = (cos (INR k * (2 * PI / INR n)), - sin (INR k * (2 * PI / INR n))).
Proof.
  induction k as [|k IH].
  - cbn [kpow]. change (INR 0) with 0. rewrite Rmult_0_l, cos_0, sin_0, Ropp_0. reflexivity.
  - cbn [kpow]. rewrite IH, S_INR, Rmult_plus_distr_r, Rmult_1_l, cos_plus, sin_plus. unfold croot.
    change (cmul (cos (INR k * (2 * PI / INR n)), - sin (INR k * (2 * PI / INR n))) (cos (2 * PI / INR n), - sin (2 * PI / INR n)) = (cos (INR k * (2 * PI / INR n)) * cos (2 * PI / INR n) - sin (INR k * (2 * PI / INR n)) * sin (2 * PI / INR n),
      - (sin (INR k * (2 * PI / INR n)) * cos (2 * PI / INR n) + cos (INR k * (2 * PI / INR n)) * sin (2 * PI / INR n)))).
    unfold cmul. cbn [fst snd]. f_equal; ring.
Qed.
Lemma sum_ones n : sumf (K := CK) n (fun _ => (1, 0)) = (INR n, 0).
Proof. induction n as [|n IH]; [reflexivity|]. rewrite S_INR. cbn [sumf]. rewrite IH. change (cadd (INR n, 0) (1, 0) = (INR n + 1, 0)). unfold cadd. cbn. f_equal. ring. Qed.
Add Ring CKr : (cr_th CK).
Lemma geometric (w : CK) n : ((w - kone) * sumf n (fun q => kpow w q) = kpow w n - kone)%K.
Proof. induction n as [|n IH]; cbn [sumf kpow]; [ring|]. transitivity (((w - kone) * sumf n (fun q => kpow w q) + (w - kone) * kpow w n)%K); [ring|]. rewrite IH. ring. Qed.
Lemma CC_domain (a b : CC) : cmul a b = (0, 0) -> a = (0, 0) \/ b = (0, 0).
Proof.
  destruct a as [a1 a2], b as [b1 b2]. unfold cmul. cbn. intros H. injection H as H1 H2.
  assert (E : (a1 * a1 + a2 * a2) * (b1 * b1 + b2 * b2) = 0).
  { replace ((a1 * a1 + a2 * a2) * (b1 * b1 + b2 * b2)) with ((a1 * b1 - a2 * b2) * (a1 * b1 - a2 * b2) + (a1 * b2 + a2 * b1) * (a1 * b2 + a2 * b1)) by ring. rewrite H1, H2. ring. }
  apply Rmult_integral in E as [E|E]; [left|right]; f_equal; nra.
Qed.
Theorem CxC_ok : cplx_ok CxC.
Proof.
  intros n Hn. assert (Hn' : 0 < INR n) by (apply lt_0_INR; exact Hn). split; [|split].
  - change (@kpow CK (croot n) n = (1, 0)). rewrite croot_pow. replace (INR n * (2 * PI / INR n)) with (2 * PI) by (field; lra). rewrite cos_2PI, sin_2PI, Ropp_0. reflexivity.
  - intros e He. change (sumf n (fun q => @kpow CK (croot n) (q * e)%nat) = (0, 0)).
    assert (E : sumf n (fun q => @kpow CK (croot n) (q * e)%nat) = sumf n (fun q => kpow (kpow (croot n) e) q)).
    { apply sumf_ext. intros q _. rewrite kpow_mul. f_equal. lia. }
    rewrite E. pose proof (geometric (kpow (croot n) e) n) as G.
    assert (Z : kpow (kpow (croot n) e) n = (1, 0)).
    { rewrite kpow_mul, Nat.mul_comm, <- kpow_mul, croot_pow. replace (INR n * (2 * PI / INR n)) with (2 * PI) by (field; lra). rewrite cos_2PI, sin_2PI, Ropp_0. exact (kpow_one (K := CK) e). }
    rewrite Z in G. change (cmul (csub (kpow (croot n) e) (1, 0)) (sumf n (fun q => kpow (kpow (croot n) e) q)) = csub (1, 0) (1, 0)) in G.
    replace (csub (1, 0) (1, 0)) with (0, 0) in G by (unfold csub; cbn; f_equal; ring).
    apply CC_domain in G as [G|G]; [|exact G]. exfalso. rewrite croot_pow in G. unfold csub in G. cbn [fst snd] in G. injection G as G _.
    set (al := PI * (INR e / INR n)).
    replace (INR e * (2 * PI / INR n)) with (2 * al) in G by (unfold al; field; lra). rewrite cos_2a_sin in G.
    assert (He' : 0 < INR e / INR n < 1).
    { assert (0 < INR e) by (apply lt_0_INR; lia). assert (INR e < INR n) by (apply lt_INR; lia). split; [apply Rdiv_lt_0_compat; assumption|].
      apply (Rmult_lt_reg_r (INR n)); [exact Hn'|]. unfold Rdiv. rewrite Rmult_assoc, Rinv_l by lra. lra. }
    assert (S : 0 < sin al) by (pose proof PI_RGT_0; apply sin_gt_0; unfold al; nra). nra.
  - change (cmul (/ INR n, 0) (sumf (K := CK) n (fun _ => (1, 0))) = (1, 0)). rewrite sum_ones. unfold cmul. cbn. f_equal; [field; lra|ring].
Qed.

(** concrete data: a batch of two signals, a wavelet on four grid points, two scales *)
Definition ex_psi : list CK := [(1, 0); (-1, 0); (2, 0); (-2, 0)].
Definition ex_x : list Q := [0; 1; 2; 3]%Q.
Definition ex_data : tensor CK := mkT (K := CK) f32 [2; 3]%nat [(1, 0); (2, 0); (3, 0); (4, 0); (5, 0); (6, 0)].
Lemma ex_count (s : Q) M : (0 < s)%Q -> (forall k, (k < M)%nat <-> (inject_Z (Z.of_nat k) < s * 3 + 1 /\ inject_Z (Z.of_nat k) < 4 * (s * 1))%Q) -> n_samples 4 3 1 s M.
Proof. intros _ H. exact H. Qed.
Theorem ex_C46 : cplx_ok CxC /\ increasing_grid ex_x 1 3 /\ wf ex_data /\ n_samples 4 3 1 1 4 /\ n_samples 4 3 1 (1 # 2) 2 /\ n_samples 4 3 1 (1 # 4) 1 /\
  (exists out, cwt CxC ex_data [1; 1 # 2; 1]%Q (WContinuous true) (Approx2 (K := CK) ex_psi ex_x) = Ok out /\ shp out = [3; 2; 3]%nat) /\
  cwt CxC ex_data [1; 1 # 4]%Q (WContinuous true) (Approx2 (K := CK) ex_psi ex_x) = Raise ValueError.
Proof.
  assert (N : forall s M (Hs : (0 < s)%Q), (forall k, (k < M)%nat <-> (inject_Z (Z.of_nat k) < s * 3 + 1 /\ inject_Z (Z.of_nat k) < 4 * (s * 1))%Q) -> n_samples 4 3 1 s M) by (intros; apply ex_count; assumption).
  assert (G : increasing_grid ex_x 1 3) by (repeat split; try reflexivity; cbn; lia).
  assert (N1 : n_samples 4 3 1 1 4). { apply N; [reflexivity|]. intros k. unfold Qlt. cbn [Qnum Qden inject_Z Qmult Qplus]. lia. }
  assert (N2 : n_samples 4 3 1 (1 # 2) 2). { apply N; [reflexivity|]. intros k. unfold Qlt. cbn. lia. }
  assert (N4 : n_samples 4 3 1 (1 # 4) 1). { apply N; [reflexivity|]. intros k. unfold Qlt. cbn. lia. }
  split; [apply CxC_ok|]. split; [exact G|]. split; [reflexivity|]. split; [exact N1|]. split; [exact N2|]. split; [exact N4|].
  assert (Main := fun scales Hne Hs => C46_cwt CxC (WContinuous true) (Approx2 (K := CK) ex_psi ex_x) ex_psi ex_x 1 3 CxC_ok (or_introl eq_refl) G ltac:(discriminate) ex_data scales eq_refl ltac:(cbn; lia) ltac:(cbn; lia) Hne Hs). split.
  - destruct (Main [1; 1 # 2; 1]%Q ltac:(discriminate) ltac:(cbn; intuition (subst; reflexivity))) as [[X _]|[_ (o & E & _ & S & _)]].
    + exfalso. repeat match goal with H : Exists _ (_ :: _) |- _ => inversion H; subst; clear H | H : Exists _ [] |- _ => inversion H end;
        match goal with H : n_samples _ _ _ ?s 1 |- _ => first [pose proof (n_samples_unique _ _ _ _ _ _ H N1); lia | pose proof (n_samples_unique _ _ _ _ _ _ H N2); lia] end.
    + exists o. split; [exact E|exact S].
  - destruct (Main [1; 1 # 4]%Q ltac:(discriminate) ltac:(cbn; intuition (subst; reflexivity))) as [[_ E]|[X _]].
    + exact E.
    + exfalso. inversion X as [|? ? _ X1]; subst. inversion X1 as [|? ? X2 _]; subst. apply X2. exact N4.
Qed.
(** the closure hypotheses of C46_real hold for the complex numbers with zero imaginary part *)
Definition ex_real (v : CK) : Prop := snd (v : CC) = 0.
Theorem ex_C46_real : ex_real kzero /\ (forall u v, ex_real u -> ex_real v -> ex_real (kadd u v)) /\ (forall u v, ex_real u -> ex_real v -> ex_real (kmul u v)) /\
  (forall u, ex_real u -> ex_real (kopp u)) /\ (forall q, ex_real (cx_of CxC q)) /\ (forall q, (0 < q)%Q -> ex_real (cx_sqrt CxC q)) /\ (forall v, ex_real v -> cx_re CxC v = v) /\
  (forall v, In v ex_psi -> ex_real v).
Proof.
  unfold ex_real. cbn. repeat split; intros; try reflexivity.
  - rewrite H, H0. apply Rplus_0_r.
  - rewrite H, H0. rewrite Rmult_0_r, Rmult_0_l. apply Rplus_0_r.
  - rewrite H. apply Ropp_0.
  - destruct v as [a b]. cbn in H. subst. reflexivity.
  - intuition (subst; reflexivity).
Qed.
