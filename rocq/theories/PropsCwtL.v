(** C67: learnable continuous wavelets. *)
From Coq Require Import List Arith ZArith QArith Qround Qreals Reals Lra Lia Bool.
From Verif Require Import Base Sums Tensor TensorFacts Learn Cwt SpecCwt CwtFacts PropsCwt Examples ExCwt CwtLearn.
Import ListNotations.
Local Open Scope R_scope.

(** ** Specification: the wavelets of bandwidth B and centre frequency C *)
Definition sinc (u : R) : R := if Req_EM_T u 0 then 1 else sin (PI * u) / (PI * u).
Definition cis (r a : R) : CC := (r * cos a, r * sin a).
Definition shannon_formula (B C t : R) : CC := cis (sqrt B * sinc (B * t)) (2 * PI * C * t).
Definition morlet_formula (B C t : R) : CC := cis (/ sqrt (PI * B) * exp (- (t * t) / B)) (2 * PI * C * t).
Definition formula (f : family) := match f with Shannon => shannon_formula | Morlet => morlet_formula end.
Definition cconj (z : CC) : CC := (fst z, - snd z).
(** n equidistant points from lo to hi *)
Definition equidistant (x : list Q) (lo hi : Q) (n : nat) : Prop :=
  List.length x = n /\ (nth 0 x 0 == lo)%Q /\ (last x 0 == hi)%Q /\
  forall i, (S i < n)%nat -> ((nth (S i) x 0 - nth i x 0) * inject_Z (Z.of_nat (n - 1)) == hi - lo)%Q.

(** ** parameters *)
Theorem C67_nonnegative d : (forall b, bandwidth d = Some b -> 0 <= b) /\ (forall c, center d = Some c -> 0 <= c).
Proof.
  unfold bandwidth, center. split; intros v H; [destruct (bandwidth_par d) as [p|]|destruct (center_par d) as [p|]]; cbn in H; try discriminate; injection H as <-; nra.
Qed.
Theorem C67_fresh fam B C lo hi cx : 0 <= B -> 0 <= C -> bandwidth (new_dcw fam B C lo hi cx) = Some B /\ center (new_dcw fam B C lo hi cx) = Some C.
Proof.
  intros HB HC. unfold bandwidth, center, new_dcw, fsqrt. cbn [bandwidth_par center_par].
  destruct (Rle_dec 0 B); [|contradiction]. destruct (Rle_dec 0 C); [|contradiction]. cbn [fmul]. rewrite !sqrt_sqrt by assumption. auto.
Qed.

(** ** grid *)
Lemma linspace_length lo hi n : List.length (linspace lo hi n) = n.
Proof. unfold linspace. destruct (Nat.eqb_spec n 1) as [->|_]; [reflexivity|]. rewrite map_length, seq_length. reflexivity. Qed.
Lemma linspace_nth lo hi n i : (2 <= n)%nat -> (i < n)%nat -> nth i (linspace lo hi n) 0%Q = (lo + inject_Z (Z.of_nat i) * ((hi - lo) / inject_Z (Z.of_nat (n - 1))))%Q.
Proof.
  intros Hn Hi. unfold linspace. destruct (Nat.eqb_spec n 1) as [->|_]; [lia|]. apply (nth_map_seq (fun i => (lo + inject_Z (Z.of_nat i) * ((hi - lo) / inject_Z (Z.of_nat (n - 1))))%Q)). exact Hi.
Qed.
Lemma last_nth {A} (l : list A) d : last l d = nth (List.length l - 1) l d.
Proof. induction l as [|a l IH]; [reflexivity|]. destruct l as [|b l]; [reflexivity|]. change (last (b :: l) d = nth (List.length l) (b :: l) d). rewrite IH. f_equal. cbn. lia. Qed.
Lemma injn_nz n : (0 < n)%nat -> ~ (inject_Z (Z.of_nat n) == 0)%Q.
Proof. intros Hn X. unfold Qeq in X. cbn in X. lia. Qed.
Theorem C67_grid d p : (1 <= p)%nat -> equidistant (snd (dcw_wavefun d p)) (d_lower d) (d_upper d) (2 ^ p).
Proof.
  intros Hp. cbn [dcw_wavefun snd]. set (n := (2 ^ p)%nat). assert (Hn : (2 <= n)%nat). { unfold n. change 2%nat with (2 ^ 1)%nat at 1. apply Nat.pow_le_mono_r; lia. }
  split; [apply linspace_length|]. split; [|split].
  - rewrite linspace_nth by lia. cbn [Z.of_nat]. change (inject_Z 0) with 0%Q. ring.
  - rewrite last_nth, linspace_length, linspace_nth by lia. field. apply injn_nz. lia.
  - intros i Hi. rewrite !linspace_nth by lia. rewrite Nat2Z.inj_succ, <- Z.add_1_r, inject_Z_plus. change (inject_Z 1) with 1%Q. field. apply injn_nz. lia.
Qed.
Lemma two_le p : (1 <= p)%nat -> (2 <= 2 ^ p)%nat.
Proof. intros Hp. change 2%nat with (2 ^ 1)%nat at 1. apply Nat.pow_le_mono_r; lia. Qed.
(** symmetric bounds: mirrored points are negatives of each other, and zero is not on the grid *)
Lemma mirror lo hi p i : (1 <= p)%nat -> (lo == - hi)%Q -> (i < 2 ^ p)%nat ->
  (nth (2 ^ p - 1 - i) (linspace lo hi (2 ^ p)) 0 == - nth i (linspace lo hi (2 ^ p)) 0)%Q.
Proof.
  intros Hp Hs Hi. pose proof (two_le p Hp) as Hn. rewrite !linspace_nth by lia.
  replace (Z.of_nat (2 ^ p - 1 - i)) with (Z.of_nat (2 ^ p - 1) - Z.of_nat i)%Z by lia. unfold Zminus. rewrite inject_Z_plus, inject_Z_opp. rewrite Hs. field. apply injn_nz. lia.
Qed.
Lemma pow_even p : (1 <= p)%nat -> exists m, (2 ^ p = 2 * m)%nat.
Proof. intros Hp. exists (2 ^ (p - 1))%nat. replace p with (S (p - 1)) at 1 by lia. cbn. lia. Qed.
Lemma off_zero lo hi p i : (1 <= p)%nat -> (lo == - hi)%Q -> (0 < hi)%Q -> (i < 2 ^ p)%nat -> ~ (nth i (linspace lo hi (2 ^ p)) 0 == 0)%Q.
Proof.
  intros Hp Hs Hh Hi X. pose proof (two_le p Hp) as Hn. rewrite linspace_nth in X by lia. rewrite Hs in X.
  destruct (pow_even p Hp) as (m & Hm). set (N := Z.of_nat (2 ^ p - 1)) in *.
  assert (E : (hi * (inject_Z (2 * Z.of_nat i) - inject_Z N) == 0)%Q).
  { rewrite inject_Z_mult. change (inject_Z 2) with 2%Q. transitivity ((- hi + inject_Z (Z.of_nat i) * ((hi - - hi) / inject_Z N)) * inject_Z N)%Q; [field; apply injn_nz; lia|]. rewrite X. ring. }
  apply Qmult_integral in E as [E|E]; [rewrite E in Hh; apply (Qlt_irrefl 0); exact Hh|].
  assert (E' : (inject_Z (2 * Z.of_nat i) == inject_Z N)%Q) by (rewrite <- (Qplus_0_l (inject_Z N)), <- E; ring).
  apply (inject_Z_injective (2 * Z.of_nat i) N) in E'. unfold N in E'. lia.
Qed.
Theorem C67_zero_free d p t : (1 <= p)%nat -> (d_lower d == - d_upper d)%Q -> (0 < d_upper d)%Q -> In t (snd (dcw_wavefun d p)) -> ~ (t == 0)%Q.
Proof.
  intros Hp Hs Hh Hin. cbn [dcw_wavefun snd] in Hin. apply (In_nth _ _ 0%Q) in Hin as (i & Hi & <-). rewrite linspace_length in Hi. apply off_zero; assumption.
Qed.

(** ** values *)
Lemma q0 t : Q2R t = 0 -> (t == 0)%Q.
Proof. intros H. apply eqR_Qeq. rewrite H. unfold Q2R. cbn. lra. Qed.
Lemma PI_pos : 0 < PI. Proof. apply PI_RGT_0. Qed.
Lemma call_ok d b c t : bandwidth_par d = Some b -> center_par d = Some c -> b <> 0 -> (d_family d = Shannon -> t <> 0) -> dcw_call d t = Some (formula (d_family d) (b * b) (c * c) t).
Proof.
  intros Hb Hc Hnz Ht. pose proof PI_pos as HP. assert (B : 0 < b * b) by nra.
  unfold dcw_call. destruct (d_family d) eqn:Ef; [unfold shannon|unfold morlet]; unfold bandwidth, center; rewrite Hb, Hc; cbn [fmul fmap fdiv fsqrt cexpi].
  - assert (T : t <> 0) by (apply Ht; reflexivity). destruct (Rle_dec 0 (b * b)); [|lra].
    assert (Bt : b * b * t <> 0) by (apply Rmult_integral_contrapositive; split; [lra|exact T]).
    destruct (Req_EM_T (PI * (b * b) * t) 0) as [X|X]; [exfalso; rewrite Rmult_assoc in X; apply Rmult_integral in X as [X|X]; [lra|contradiction]|].
    cbn [fmul fscale]. unfold formula, shannon_formula, cis, sinc. destruct (Req_EM_T (b * b * t) 0); [contradiction|].
    rewrite !Rmult_assoc. reflexivity.
  - assert (PB : 0 < PI * (b * b)) by nra. destruct (Rle_dec 0 (PI * (b * b))); [|lra]. cbn [fdiv fmul].
    pose proof (sqrt_lt_R0 _ PB) as SP. destruct (Req_EM_T (sqrt (PI * (b * b))) 0); [lra|]. destruct (Req_EM_T (b * b) 0); [lra|]. cbn [fmap fmul fscale].
    unfold formula, morlet_formula, cis, Rdiv. rewrite !Rmult_1_l. replace (t ^ 2) with (t * t) by ring. rewrite !Rmult_assoc. reflexivity.
Qed.
(** the parameters are usable: no nan, the bandwidth is not zero, and a Shannon wavelet has symmetric bounds *)
Definition usable (d : dcw) (b c : R) : Prop :=
  bandwidth_par d = Some b /\ center_par d = Some c /\ b <> 0 /\ (d_lower d < d_upper d)%Q /\ (d_family d = Shannon -> (d_lower d == - d_upper d)%Q).
Theorem C67_values d b c p : usable d b c -> (1 <= p)%nat ->
  fst (dcw_wavefun d p) = map (fun t => Some (formula (d_family d) (b * b) (c * c) (Q2R t))) (snd (dcw_wavefun d p)).
Proof.
  intros (Hb & Hc & Hnz & Hlt & Hs) Hp. cbn [dcw_wavefun fst snd]. apply map_ext_in. intros t Hin. apply call_ok; auto. intros Hf X. specialize (Hs Hf).
  apply (C67_zero_free d p t Hp Hs); [|exact Hin|apply q0; exact X].
  rewrite Hs in Hlt. apply Qnot_le_lt. intros Y. apply (Qlt_irrefl (d_upper d)). eapply Qle_lt_trans; [|exact Hlt]. apply Qle_trans with 0%Q; [exact Y|]. apply (Qopp_le_compat _ _ Y).
Qed.
(** mirrored grid points carry conjugate values *)
Lemma formula_conj f B C t : formula f B C (- t) = cconj (formula f B C t).
Proof.
  destruct f; unfold formula, shannon_formula, morlet_formula, cis, cconj; cbn [fst snd];
    replace (2 * PI * C * - t) with (- (2 * PI * C * t)) by ring; rewrite cos_neg, sin_neg.
  - replace (sinc (B * - t)) with (sinc (B * t)); [f_equal; ring|]. unfold sinc. replace (B * - t) with (- (B * t)) by ring.
    destruct (Req_EM_T (B * t) 0) as [E|E], (Req_EM_T (- (B * t)) 0) as [E'|E']; try reflexivity; try lra.
    replace (PI * - (B * t)) with (- (PI * (B * t))) by ring. rewrite sin_neg. pose proof PI_pos. field. repeat split; intros X; solve [lra | apply E; rewrite X; ring].
  - replace (- t * - t) with (t * t) by ring. f_equal; ring.
Qed.
Theorem C67_conjugate d b c p i : usable d b c -> (d_lower d == - d_upper d)%Q -> (1 <= p)%nat -> (i < 2 ^ p)%nat ->
  exists z, nth_error (fst (dcw_wavefun d p)) i = Some (Some z) /\ nth_error (fst (dcw_wavefun d p)) (2 ^ p - 1 - i) = Some (Some (cconj z)).
Proof.
  intros Hu Hs Hp Hi. rewrite (C67_values d b c p Hu Hp). cbn [dcw_wavefun snd]. set (x := linspace _ _ _).
  assert (Lx : List.length x = (2 ^ p)%nat) by apply linspace_length.
  exists (formula (d_family d) (b * b) (c * c) (Q2R (nth i x 0%Q))). split.
  - apply (map_nth_error (fun t => Some (formula (d_family d) (b * b) (c * c) (Q2R t)))). apply nth_error_nth'. lia.
  - rewrite <- formula_conj, <- Q2R_opp. replace (Q2R (- nth i x 0%Q)) with (Q2R (nth (2 ^ p - 1 - i) x 0%Q)) by (apply Qeq_eqR; apply mirror; assumption). apply (map_nth_error (fun t => Some (formula (d_family d) (b * b) (c * c) (Q2R t)))). apply nth_error_nth'. lia.
Qed.
(** a zero bandwidth parameter gives nothing but nan, and so does a Shannon wavelet at zero *)
Theorem C67_nan d p : bandwidth_par d = Some 0 -> Forall (fun v => v = None) (fst (dcw_wavefun d p)).
Proof.
  intros Hb. cbn [dcw_wavefun fst]. apply Forall_forall. intros v Hin. apply in_map_iff in Hin as (t & <- & _). unfold dcw_call, shannon, morlet, bandwidth. rewrite Hb. cbn [fmul fmap fdiv fsqrt].
  destruct (d_family d).
  - destruct (Rle_dec 0 (0 * 0)); [|reflexivity]. destruct (Req_EM_T (PI * (0 * 0) * Q2R t) 0) as [_|X]; [reflexivity|exfalso; apply X; ring].
  - destruct (Rle_dec 0 (PI * (0 * 0))); [|reflexivity]. cbn [fdiv]. destruct (Req_EM_T (sqrt (PI * (0 * 0))) 0) as [_|X]; [reflexivity|]. exfalso. apply X. rewrite !Rmult_0_r. apply sqrt_0.
Qed.
Theorem C67_shannon_zero d : d_family d = Shannon -> dcw_call d 0 = None.
Proof.
  intros Hf. unfold dcw_call. rewrite Hf. unfold shannon. destruct (bandwidth d) as [B|]; [|reflexivity]. cbn [fmul fmap fdiv fsqrt].
  destruct (Rle_dec 0 B); [|reflexivity]. destruct (Req_EM_T (PI * B * 0) 0) as [_|X]; [reflexivity|]. exfalso. apply X. ring.
Qed.

(** ** the transform *)
Lemma all_some_map {A B} (f : A -> B) l : all_some (map (fun a => Some (f a)) l) = Some (map f l).
Proof. induction l as [|a l IH]; [reflexivity|]. cbn [map all_some]. rewrite IH. reflexivity. Qed.
Lemma deq_refl v : device_eqb v v = true.
Proof. destruct v; cbn; rewrite ?Nat.eqb_refl; reflexivity. Qed.
(** cwt with the module is cwt with a fixed wavelet that has the formula's values; the parameters are unchanged and the
    module ends on the data's device *)
Theorem C67_cwt data scales d b c p : usable d b c -> (1 <= p)%nat -> (tdevice data = cuda 0 \/ tdevice data = cpu /\ d_device d = cpu) ->
  let x := snd (dcw_wavefun d p) in
  let psi := map (fun t => formula (d_family d) (b * b) (c * c) (Q2R t)) x in
  fst (cwt_learnable data scales d p) =
    (let* out := cwt CxC data scales (WContinuous (d_complex d)) (Approx2 (K := CK) psi x) in Ok (Some out)) /\
  snd (cwt_learnable data scales d p) = move d (tdevice data).
Proof.
  intros Hu Hp Hd x psi. pose proof (C67_values d b c p Hu Hp) as Hv. fold x in Hv.
  assert (Main : forall d1, d1 = move d (tdevice data) -> dcw_wavefun d1 p = dcw_wavefun d p /\ d_complex d1 = d_complex d /\ d_device d1 = tdevice data /\ d1 = (if is_cuda (tdevice data) then move d (cuda 0) else d)).
  { intros d1 ->. repeat split. destruct Hd as [E|[E E']]; rewrite E; cbn [is_cuda]; [reflexivity|]. destruct d. cbn in *. subst. reflexivity. }
  destruct (Main _ eq_refl) as (E1 & E2 & E3 & E4). unfold cwt_learnable. rewrite <- E4. rewrite E1. rewrite (surjective_pairing (dcw_wavefun d p)). fold x. rewrite Hv. fold x.
  rewrite E3, deq_refl. cbn [negb]. rewrite all_some_map. fold psi. rewrite E2.
  change (cwt CxC data scales (WModule (d_complex d)) (Approx2 (K := CK) psi x)) with (cwt CxC data scales (WContinuous (d_complex d)) (Approx2 (K := CK) psi x)).
  destruct (cwt CxC data scales _ _) as [out|e]; cbn [fst snd rbind]; (split; [reflexivity|]); [|reflexivity].
  destruct Hd as [E|[E E']]; rewrite E; cbn [is_cuda]; reflexivity.
Qed.
(** and C46 applies to it *)
Theorem C67_cwt_grid d b c p : usable d b c -> (1 <= p)%nat ->
  exists step width, increasing_grid (snd (dcw_wavefun d p)) step width /\ (step * inject_Z (Z.of_nat (2 ^ p - 1)) == d_upper d - d_lower d)%Q /\ (width == d_upper d - d_lower d)%Q.
Proof.
  intros (_ & _ & _ & Hlt & _) Hp. destruct (C67_grid d p Hp) as (G1 & G2 & G3 & G4). pose proof (two_le p Hp) as Hn.
  eexists; eexists. split; [split; [rewrite G1; exact Hn|]; split; [reflexivity|]; split; [reflexivity|]|].
  - assert (W : (0 < d_upper d - d_lower d)%Q) by (apply -> Qlt_minus_iff; exact Hlt). split.
    + specialize (G4 0%nat). rewrite <- (G4 ltac:(lia)) in W. apply (Qmult_lt_r _ _ (inject_Z (Z.of_nat (2 ^ p - 1)))); [change 0%Q with (inject_Z 0); rewrite <- Zlt_Qlt; lia|]. rewrite Qmult_0_l. exact W.
    + rewrite G2, G3. exact W.
  - split; [apply (G4 0%nat); lia|]. rewrite G2, G3. reflexivity.
Qed.
(** data on a device the module is not moved to *)
Theorem C67_other_device data scales d p : (exists n, tdevice data = cuda (S n)) \/ (tdevice data = cpu /\ d_device d <> cpu) ->
  fst (cwt_learnable data scales d p) = Raise RuntimeError.
Proof.
  intros H. unfold cwt_learnable. set (d1 := if is_cuda _ then _ else _).
  assert (X : device_eqb (d_device d1) (tdevice data) = false).
  { unfold d1. destruct H as [(n & E)|[E E']]; rewrite E; cbn [is_cuda move d_device device_eqb]; [reflexivity|]. destruct (d_device d); [congruence|reflexivity]. }
  destruct (dcw_wavefun d1 p). rewrite X. reflexivity.
Qed.

(** ** a fresh "shan1.5-1.0" and a fresh "cmor1.5-1.0" on pywt's default bounds *)
Theorem ex_C67 : usable (new_dcw Shannon (3 / 2) 1 (-20) 20 true) (sqrt (3 / 2)) (sqrt 1) /\ usable (new_dcw Morlet (3 / 2) 1 (-8) 8 true) (sqrt (3 / 2)) (sqrt 1) /\
  (exists x0 x1, snd (dcw_wavefun (new_dcw Shannon (3 / 2) 1 (-20) 20 true) 1) = [x0; x1] /\ (x0 == -20)%Q /\ (x1 == 20)%Q) /\
  (exists out, fst (cwt_learnable ex_data [1; 3]%Q (new_dcw Morlet (3 / 2) 1 (-8) 8 true) 2) = Ok (Some out) /\ shp out = [2; 2; 3]%nat).
Proof.
  assert (U : forall fam lo hi, (lo < hi)%Q -> (lo == - hi)%Q -> usable (new_dcw fam (3 / 2) 1 lo hi true) (sqrt (3 / 2)) (sqrt 1)).
  { intros fam lo hi H1 H2. unfold usable, new_dcw, fsqrt. cbn [bandwidth_par center_par d_lower d_upper d_family].
    destruct (Rle_dec 0 (3 / 2)); [|lra]. destruct (Rle_dec 0 1); [|lra]. repeat split; auto. pose proof (sqrt_lt_R0 (3 / 2) ltac:(lra)). lra. }
  split; [apply U; reflexivity|]. split; [apply U; reflexivity|]. split.
  - eexists; eexists. split; [reflexivity|]. split; reflexivity.
  - set (d := new_dcw Morlet (3 / 2) 1 (-8) 8 true). assert (Ud : usable d (sqrt (3 / 2)) (sqrt 1)) by (apply U; reflexivity).
    assert (H2 : (1 <= 2)%nat) by lia.
    destruct (C67_cwt ex_data [1; 3]%Q d _ _ 2 Ud H2 (or_intror (conj eq_refl eq_refl))) as [-> _].
    destruct (C67_cwt_grid d _ _ 2 Ud H2) as (step & width & G & Gs & Gw). pose proof G as (_ & _ & _ & G4 & G5).
    set (x := snd (dcw_wavefun d 2)) in *. set (psi := map _ x). assert (Lp : List.length psi = 4%nat) by reflexivity.
    assert (Hne : psi <> []) by (intros X; rewrite X in Lp; discriminate).
    destruct (C46_cwt CxC (WContinuous (d_complex d)) (Approx2 (K := CK) psi x) psi x step width CxC_ok (or_introl eq_refl) G Hne ex_data [1; 3]%Q eq_refl ltac:(cbn; lia) ltac:(cbn; lia) ltac:(discriminate) ltac:(cbn; intuition (subst; reflexivity)))
      as [[X _]|[_ (o & E & _ & S & _)]].
    + exfalso. change (inject_Z (Z.of_nat (2 ^ 2 - 1))) with (inject_Z 3) in Gs. change (d_upper d - d_lower d)%Q with (8 - -8)%Q in Gs.
      assert (St : (step == 16 # 3)%Q) by (apply (Qmult_inj_r _ _ (inject_Z 3)); [discriminate|rewrite Gs; reflexivity]).
      assert (Y : forall s, (0 < s)%Q -> ((1 <= s))%Q -> ~ n_samples 4 width step s 1).
      { intros s0 Hs0 Hs1 H. apply (C46_too_small 4 width step s0 Hs0 G4 G5 ltac:(lia)) in H. rewrite St in H. change (inject_Z (Z.of_nat 4)) with 4%Q in H.
        apply (Qlt_irrefl 1). apply Qlt_le_trans with (4 * (1 * (16 # 3)))%Q; [reflexivity|]. eapply Qle_trans; [|exact H].
        apply Qmult_le_l; [reflexivity|]. apply Qmult_le_r; [reflexivity|exact Hs1]. }
      apply Exists_exists in X as (s0 & Hin & X). refine (Y s0 _ _ X); destruct Hin as [<-|[<-|[]]]; (reflexivity || discriminate).
    + exists o. rewrite E. split; [reflexivity|exact S].
Qed.
