(** C85: with an orthogonal bank and zero padding, synthesis from arbitrary (thresholded, quantised, ...) coefficients
    is least squares: no signal has coefficients closer to the given ones. *)
From Coq Require Import List Arith ZArith Lia Bool Ascii String Ring Reals Lra.
From Coq Require Import ZifyNat ZifyBool.
From Verif Require Import Base Sums Tensor TensorFacts Util Perm Plumb Accept Spec Conv1 PadFacts CoreFacts Analysis AnalysisInv PRKernel Synthesis Filters Wave1 Wave1Inv Rec1 Rec1Inv Lin Examples Props1 Conv2 Conv3 Spec2 WaveN RecN Props2 Sep SpecSep SepFacts SepRec SepRec2 SepRec3 PropsSep Unified RecNInv UnifiedRec PropsConst PropsLocal SpecMat PropsMat1 Boundary EnergyN PropsLocalRec Polyphase PropsAdjoint RealLA.
Import ListNotations.

Section Best.
Context {K : CRing}.
Add Ring Kring : (cr_th K).
Local Open Scope K_scope.
Implicit Types (x y z t : tensor K) (w : wavelet K).

(** squared distance over the positions of the first tensor / of the tensors of two containers *)
Definition dist2 x y : K := sumI (shp x) (fun i => (get x i - get y i) * (get x i - get y i)).
Definition dists (xs ys : list (tensor K)) : K := sumL (combine xs ys) (fun p => dist2 (fst p) (snd p)).
(** energy of y over the positions of x *)
Definition energy_on x y : K := sumI (shp x) (fun i => get y i * get y i).

Lemma dist2_expand x y : dist2 x y + (inner x y + inner x y) = inner x x + energy_on x y.
Proof. unfold dist2, inner, energy_on. rewrite <- !sumI_add. apply sumI_ext. intros i _. ring. Qed.
Lemma energy_on_self x y : shp y = shp x -> energy_on x y = inner y y.
Proof. intros H. unfold energy_on, inner. rewrite H. reflexivity. Qed.
Lemma dists_expand (xs ys : list (tensor K)) : Forall2 (fun t t' => shp t' = shp t) xs ys ->
  dists xs ys + (inners xs ys + inners xs ys) = inners xs xs + inners ys ys.
Proof.
  unfold dists, inners. induction 1 as [|t t' xs ys H HF IH]; cbn [combine sumL fst snd]; [ring|].
  pose proof (dist2_expand t t') as E. rewrite (energy_on_self t t' H) in E.
  transitivity ((dist2 t t' + (inner t t' + inner t t')) + (sumL (combine xs ys) (fun p => dist2 (fst p) (snd p)) + (sumL (combine xs ys) (fun p => inner (fst p) (snd p)) + sumL (combine xs ys) (fun p => inner (fst p) (snd p))))); [ring|].
  rewrite E, IH. ring.
Qed.

Lemma laid_out_euclid (a b c : pycoeffs K) : laid_out_like a b -> laid_out_like a c -> laid_out_like b c.
Proof.
  intros [H1 H2] [H3 H4]. split; [congruence|]. revert H2 H4. generalize (pc_items a) (pc_items b) (pc_items c). clear.
  intros l l' l'' H. revert l''. induction H as [|v v' l l' Hv H IH]; intros l'' H4; inversion H4 as [|? v'' ? m'' Hv' H']; subst; constructor; [|apply IH; exact H'].
  clear - Hv Hv'. destruct Hv as [t t' Ht|k k' Hk|d d' Hd]; inversion Hv' as [? t'' Ht'|? k'' Hk'|? d'' Hd']; subst; constructor.
  - intuition congruence.
  - clear - Hk Hk'. revert k'' Hk'. induction Hk as [|t t' k k' Ht H IH]; intros k'' H4; inversion H4; subst; constructor; [intuition congruence|]. apply IH; assumption.
  - clear - Hd Hd'. revert d'' Hd'. induction Hd as [|t t' k k' Ht H IH]; intros k'' H4; inversion H4; subst; constructor; [intuition congruence|]. apply IH; assumption.
Qed.
Lemma laid_out_shapes (a c : pycoeffs K) : laid_out_like a c -> Forall2 (fun t t' => shp t' = shp t) (pc_tensors a) (pc_tensors c).
Proof.
  intros [_ H]. unfold pc_tensors. induction H as [|v v' l l' Hv H IH]; cbn [flat_map]; [constructor|]. apply Forall2_app; [|exact IH]. clear - Hv.
  destruct Hv as [t t' Ht|k k' Hk|d d' Hd]; cbn [pv_tensors].
  - constructor; [apply Ht|constructor].
  - induction Hk as [|t t' k k' Ht H IH]; constructor; [apply Ht|exact IH].
  - induction Hd as [|t t' k k' Ht H IH]; cbn [map]; constructor; [apply Ht|exact IH].
Qed.
Lemma laid_out_len (a c : pycoeffs K) : laid_out_like a c -> List.length (pc_items c) = List.length (pc_items a).
Proof. intros [_ H]. symmetry. apply (F2_len _ _ _ H). Qed.

(** every signal of the shape of x is accepted, with coefficients laid out alike *)
Lemma analyse_like T x z w m L level cx : wf x -> wf z -> shp z = shp x -> ttag z = ttag x ->
  List.length (dec_lo w) = L -> List.length (dec_hi w) = L -> (2 <= L)%nat -> Nat.even L = true ->
  (is3 T = true -> (2 <= List.length (pc_items cx))%nat) -> (isfs T = true -> level = None -> ~ In 0%nat (shp x)) ->
  analyse T x w (Some (mode_name m)) level = Ok cx ->
  exists cz, analyse T z w (Some (mode_name m)) level = Ok cz /\ laid_out_like cx cz.
Proof.
  intros Hw Hw' Hs Ht H1 H2 HL He H3 Hfs E.
  assert (Hr : rank z = rank x) by (unfold rank; rewrite Hs; reflexivity).
  destruct (analyse_inv T x w m L level cx Hw H1 H2 HL He (fun h => or_introl (H3 h)) Hfs E) as (Hd & axes & Hh & Hla & Hax & HJ). cbv zeta in HJ. destruct HJ as (J0 & Hp & Hlev & Ec).
  exists (tspec T (dec_lo w) (dec_hi w) m (map (norm_axis (rank x)) axes) (num_levels level L (gather (map (norm_axis (rank x)) axes) 0%nat (shp x))) z). split.
  - pose proof (analyse_ok T z w m L level axes) as G. cbv zeta in G. rewrite Hr, Hs in G. apply G; auto. unfold tdtype in *. rewrite Ht. exact Hd.
  - rewrite Ec. apply (laid_out_tspec T _ _ m L); auto; [rewrite map_length; exact Hla|apply good_axes_ok; exact Hax].
Qed.

Theorem C85_pythagoras T x w L level cx c : cancel2 K -> orthogonal_bank L (dec_lo w) (dec_hi w) (rec_lo w) (rec_hi w) -> wf x ->
  (is3 T = true -> (2 <= List.length (pc_items cx))%nat) -> (isfs T = true -> level = None -> ~ In 0%nat (shp x)) ->
  analyse T x w (Some "zero"%string) level = Ok cx -> laid_out_like cx c ->
  exists y, inverse T c w = Ok y /\ covers x y /\
    forall z, wf z -> shp z = shp x -> ttag z = ttag x ->
    exists cz, analyse T z w (Some "zero"%string) level = Ok cz /\
      dists (pc_tensors cz) (pc_tensors c) + energy_on x y = dist2 z y + inners (pc_tensors c) (pc_tensors c).
Proof.
  intros Hc B Hw H3 Hfs E Hl.
  pose proof (ob_len_lo _ _ _ _ _ B) as H1. pose proof (ob_len_hi _ _ _ _ _ B) as H2. pose proof (ob_two _ _ _ _ _ B) as HL.
  assert (He : Nat.even L = true). { apply Nat.even_spec. exists (L / 2)%nat. pose proof (ob_even _ _ _ _ _ B). pose proof (Nat.div_mod L 2 ltac:(lia)). lia. }
  pose proof (ob_rec_lo _ _ _ _ _ B) as R1. pose proof (ob_rec_hi _ _ _ _ _ B) as R2.
  destruct (C82_adjoint T x w w L level cx c Hw H1 H2 HL He R1 R2 H3 Hfs E Hl) as (y & Ey & Hcov & _).
  exists y. split; [exact Ey|]. split; [exact Hcov|]. intros z Hwz Hs Ht.
  destruct (analyse_like T x z w Mzero L level cx Hw Hwz Hs Ht H1 H2 HL He H3 Hfs E) as (cz & Ez & Hlz). exists cz. split; [exact Ez|].
  assert (H3z : is3 T = true -> (2 <= List.length (pc_items cz))%nat) by (intros h; rewrite (laid_out_len _ _ Hlz); auto).
  assert (Hfz : isfs T = true -> level = None -> ~ In 0%nat (shp z)) by (rewrite Hs; exact Hfs).
  pose proof (laid_out_euclid _ _ _ Hlz Hl) as Hzc.
  destruct (C82_adjoint T z w w L level cz c Hwz H1 H2 HL He R1 R2 H3z Hfz Ez Hzc) as (y' & Ey' & _ & Hi).
  rewrite Ey in Ey'. apply ok_inj in Ey'. subst y'.
  pose proof (C81_inner_products T z z w L level cz cz Hc B Hwz Hwz eq_refl eq_refl (fun h => conj (H3z h) (H3z h)) Hfz Ez Ez) as Hn.
  pose proof (dists_expand _ _ (laid_out_shapes _ _ Hzc)) as D. rewrite Hi, Hn in D. pose proof (dist2_expand z y) as D'.
  assert (Eo : energy_on z y = energy_on x y) by (unfold energy_on; rewrite Hs; reflexivity). rewrite Eo in D'.
  transitivity ((dists (pc_tensors cz) (pc_tensors c) + (inner z y + inner z y)) + energy_on x y - (inner z y + inner z y)); [ring|].
  rewrite D. transitivity ((inner z z + energy_on x y) + inners (pc_tensors c) (pc_tensors c) - (inner z y + inner z y)); [ring|]. rewrite <- D'. ring.
Qed.
End Best.

(** over the reals: the reconstruction, cut to the size of the signal, is the unique best approximation, and synthesis
    never increases the energy *)
Section BestR.
Local Open Scope R_scope.
Notation tens := (tensor RK).
Lemma sumf_nonneg n (f : nat -> RK) : (forall i, (i < n)%nat -> 0 <= f i) -> 0 <= sumf (K := RK) n f.
Proof. induction n as [|n IH]; intros H; cbn [sumf]; [apply Rle_refl|]. apply Rplus_le_le_0_compat; [apply IH; intros; apply H; lia|apply H; lia]. Qed.
Lemma sumI_nonneg : forall s (f : list nat -> RK), (forall i, valid i s -> 0 <= f i) -> 0 <= sumI (K := RK) s f.
Proof.
  induction s as [|n s IH]; intros f H; cbn [sumI]; [apply H; constructor|]. apply sumf_nonneg. intros i Hi. apply IH. intros is His. apply H. constructor; assumption.
Qed.
Lemma sumI_zero_inv : forall s (f : list nat -> RK), (forall i, valid i s -> 0 <= f i) -> sumI (K := RK) s f = 0 -> forall i, valid i s -> f i = 0.
Proof.
  assert (G : forall n (f : nat -> RK), (forall i, (i < n)%nat -> 0 <= f i) -> sumf (K := RK) n f = 0 -> forall i, (i < n)%nat -> f i = 0).
  { induction n as [|n IH]; intros f H E i Hi; [lia|]. cbn [sumf] in E. assert (A : 0 <= sumf (K := RK) n f) by (apply sumf_nonneg; intros; apply H; lia). pose proof (H n ltac:(lia)) as B.
    change (sumf (K := RK) n f + f n = 0) in E. destruct (Nat.eq_dec i n) as [->|]; [lra|]. apply IH; [intros; apply H; lia|lra|lia]. }
  induction s as [|n s IH]; intros f H E i Hv; inversion Hv as [|j ? js ? Hj Hjs]; subst; [exact E|]. cbn [sumI] in E.
  apply (IH (fun is => f (j :: is))); [intros is His; apply H; constructor; assumption| |exact Hjs].
  apply (G n (fun i => sumI (K := RK) s (fun is => f (i :: is)))); [|exact E|exact Hj]. intros k Hk. apply sumI_nonneg. intros is His. apply H. constructor; assumption.
Qed.
Lemma dist2_nonneg (x y : tens) : 0 <= dist2 x y.
Proof. apply sumI_nonneg. intros i _. apply Rle_0_sqr. Qed.
Lemma dists_nonneg (xs ys : list tens) : 0 <= dists xs ys.
Proof. unfold dists. induction (combine xs ys) as [|p l IH]; cbn [sumL]; [apply Rle_refl|]. apply Rplus_le_le_0_compat; [apply dist2_nonneg|exact IH]. Qed.
Lemma RK_cancel2 : cancel2 RK.
Proof. intros a b H. assert (G : forall u v : R, u + u = v + v -> u = v) by (intros; lra). exact (G a b H). Qed.

Theorem C85_least_squares T (x : tens) w L level cx c : orthogonal_bank L (dec_lo w) (dec_hi w) (rec_lo w) (rec_hi w) -> wf x ->
  (is3 T = true -> (2 <= List.length (pc_items cx))%nat) -> (isfs T = true -> level = None -> ~ In 0%nat (shp x)) ->
  analyse T x w (Some "zero"%string) level = Ok cx -> laid_out_like cx c ->
  exists y cb, inverse T c w = Ok y /\ covers x y /\
    let best := tmake (ttag x) (shp x) (get y) in
    analyse T best w (Some "zero"%string) level = Ok cb /\
    (forall z : tens, wf z -> shp z = shp x -> ttag z = ttag x -> exists cz, analyse T z w (Some "zero"%string) level = Ok cz /\
       dists (pc_tensors cb) (pc_tensors c) <= dists (pc_tensors cz) (pc_tensors c) /\
       (dists (pc_tensors cz) (pc_tensors c) = dists (pc_tensors cb) (pc_tensors c) -> z = best)) /\
    energy best <= energies (pc_tensors c).
Proof.
  intros B Hw H3 Hfs E Hl. destruct (C85_pythagoras T x w L level cx c RK_cancel2 B Hw H3 Hfs E Hl) as (y & Ey & Hcov & Hz).
  set (best := tmake (ttag x) (shp x) (get y)).
  destruct (Hz best (wf_make _ _ _) eq_refl eq_refl) as (cb & Eb & Db). exists y, cb. split; [exact Ey|]. split; [exact Hcov|]. cbv zeta. fold best. split; [exact Eb|].
  assert (D0 : dist2 best y = 0).
  { unfold dist2. change (shp best) with (shp x). transitivity (sumI (K := RK) (shp x) (fun _ => (kzero : RK))); [|change (sumI (K := RK) (shp x) (fun _ => (kzero : RK)) = kzero); apply sumI_zero; reflexivity].
    apply sumI_ext. intros i Hi. unfold best. rewrite get_make by exact Hi. assert (G : forall u : R, (u - u) * (u - u) = 0) by (intros; ring). exact (G (get y i)). }
  assert (Fin : forall a b c d e f : R, a + b = c + d -> e + b = f + d -> f = 0 -> 0 <= c -> e <= a /\ (a = e -> c = 0)) by (intros; lra).
  split.
  - intros z Hwz Hs Ht. destruct (Hz z Hwz Hs Ht) as (cz & Ez & Dz). exists cz. split; [exact Ez|].
    destruct (Fin _ _ _ _ _ _ Dz Db D0 (dist2_nonneg z y)) as [F1 F2]. split; [exact F1|]. intros Heq. specialize (F2 Heq).
    apply t_ext; [exact Hwz|apply wf_make|exact Ht|exact Hs|]. intros i Hi. unfold best. rewrite get_make by (rewrite <- Hs; exact Hi).
    assert (G : forall a b : R, (a - b) * (a - b) = 0 -> a = b) by (intros a b Hab; apply Rmult_integral in Hab; lra). apply G.
    exact (sumI_zero_inv (shp z) _ (fun i _ => Rle_0_sqr _) F2 i Hi).
  - pose proof (dists_nonneg (pc_tensors cb) (pc_tensors c)) as N.
    assert (Ee : energy best = energy_on x y).
    { unfold energy, energy_on. change (shp best) with (shp x). apply sumI_ext. intros i Hi. unfold best. rewrite get_make by exact Hi. reflexivity. }
    assert (En : energies (pc_tensors c) = inners (pc_tensors c) (pc_tensors c)).
    { unfold energies, inners. clear. induction (pc_tensors c) as [|t l IH]; [reflexivity|]. cbn [combine sumL fst snd]. rewrite IH. reflexivity. }
    assert (Fin2 : forall e b f d : R, e + b = f + d -> f = 0 -> 0 <= e -> b <= d) by (intros; lra).
    refine (eq_rect_r (fun a => a <= _) _ Ee). refine (eq_rect_r (fun a => _ <= a) _ En). exact (Fin2 _ _ _ _ Db D0 N).
Qed.
End BestR.
