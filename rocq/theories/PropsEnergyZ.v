(** C73: with zero padding of odd sizes the boundary transforms and the boundary packets keep the energy, whatever the
    sizes. *)
From Coq Require Import List Arith ZArith QArith Lia Bool String Ascii Ring.
From Coq Require Import ZifyNat ZifyBool.
From Verif Require Import Base Sums Tensor TensorFacts Util Perm Plumb Accept Spec Conv1 Conv2 PadFacts CoreFacts AnalysisInv Synthesis Filters Wave1 Wave1Inv Rec1 Props1 RecN Sep SepFacts Lin Swt SpecSwt SwtFacts SwtDec SwtRec PropsSwt Packets SpecPk PacketFacts PacketConv PropsPk PropsNd Sparse SparseFacts SpecMat SpecMatN SparseMM LinAlg Mat1 MatN MatOrth Boundary MatPre Mat1Facts Mat1Call Tags PropsMat1 MatNFacts MatNLoop MatNSep MatNNon MatNCall PropsMatN PropsMatN2 PropsMatNon EnergyN Surj PropsSurj PacketsM PkInv SpecPkM PropsPkM PropsPkM2 PropsLin PropsBatch PropsBatch2 PropsNest.
Import ListNotations.
Ltac Zify.zify_post_hook ::= Z.div_mod_to_equations.
Local Open Scope nat_scope.
Local Arguments Nat.div : simpl never.
Local Arguments Nat.modulo : simpl never.

Lemma bw_bwn_levels L l : forall n, bw_levels l L n = bwn_levels l L [n].
Proof. induction l as [|l IH]; intros n; [reflexivity|]. cbn [bw_levels bwn_levels existsb map]. rewrite orb_false_r. destruct (n <? L); [reflexivity|]. f_equal. apply IH. Qed.
Section EZ.
Context {K : CRing}.
Add Ring Kring : (cr_th K).
Local Open Scope K_scope.
Implicit Types (t u x y : tensor K).

(** the zero extension adds nothing to the energy *)
Lemma ext_idx_zero_in n i : (i < n)%nat -> ext_idx Mzero n (Z.of_nat i) = Some i.
Proof. intros H. cbn [ext_idx]. destruct ((0 <=? Z.of_nat i)%Z && (Z.of_nat i <? Z.of_nat n)%Z) eqn:E; [rewrite Nat2Z.id; reflexivity|lia]. Qed.
Lemma ext_idx_zero_out n i : (n <= i)%nat -> ext_idx Mzero n (Z.of_nat i) = None.
Proof. intros H. cbn [ext_idx]. destruct ((0 <=? Z.of_nat i)%Z && (Z.of_nat i <? Z.of_nat n)%Z) eqn:E; [lia|reflexivity]. Qed.
Lemma sum_zero_ext s : forall (X : list nat -> K),
  sumI (map even_up s) (fun is => ext_get Mzero s X (map Z.of_nat is) * ext_get Mzero s X (map Z.of_nat is)) = sumI s (fun is => X is * X is).
Proof.
  induction s as [|n s IH]; intros X; [reflexivity|]. cbn [map sumI]. replace (even_up n) with (n + (even_up n - n))%nat by (unfold even_up; lia). rewrite sumf_app.
  rewrite (sumf_ext n _ (fun i => sumI s (fun is => X (i :: is) * X (i :: is)))).
  - match goal with |- _ + ?z = _ => assert (E : z = 0) end; [|rewrite E; ring]. apply sumf_zero. intros i Hi. apply sumI_zero. intros is _. rewrite ext_get_cons, ext_idx_zero_out by lia. ring.
  - intros i Hi. rewrite <- (IH (fun is => X (i :: is))). apply sumI_ext. intros is _. rewrite ext_get_cons, ext_idx_zero_in by exact Hi. reflexivity.
Qed.
Lemma energy_ext_zero nax x : good_axes (rank x) nax -> energy (ext_even Mzero nax x) = energy x.
Proof.
  intros Hg. rewrite (energy_axes x nax Hg). unfold energy. rewrite shp_ext_even. destruct Hg as [Hn Hin]. set (s := gather nax 0%nat (shp x)).
  assert (Hl : List.length (map even_up s) = List.length nax) by (unfold s; rewrite map_length; apply gather_length).
  rewrite (sumI_axes nax _ (shp x)) by auto. apply sumI_ext. intros idx Hv. rewrite <- (sum_zero_ext s (fun is => get x (upds nax is idx))). apply sumI_ext. intros ks Hk.
  assert (Hlk : List.length ks = List.length nax) by (rewrite (valid_length _ _ Hk); exact Hl).
  assert (Hli : List.length idx = List.length (shp x)) by (rewrite (valid_length _ _ Hv); apply upds_length).
  assert (E : get (ext_even Mzero nax x) (upds nax ks idx) = ext_get Mzero s (fun is => get x (upds nax is idx)) (map Z.of_nat ks)).
  { unfold ext_even, along_axes. fold s. rewrite get_make.
    - rewrite gather_upds; [|exact Hn|exact Hlk|intros d Hd; rewrite Hli; apply Hin; exact Hd]. unfold ext_get. destruct (ext_idxs Mzero s (map Z.of_nat ks)) as [is|] eqn:Ei; [|reflexivity].
      f_equal. apply upds_upds; [exact Hn|]. assert (Hs : List.length is = List.length s).
      { assert (Hlz : List.length (map Z.of_nat ks) = List.length s) by (rewrite map_length, Hlk; unfold s; symmetry; apply gather_length). clear - Ei Hlz. revert Ei Hlz. generalize (map Z.of_nat ks). revert is. induction s as [|n s IH]; intros is [|z zs] H Hlz; try discriminate; cbn [ext_idxs] in H.
        - injection H as <-. reflexivity.
        - destruct (ext_idx Mzero n z); [|discriminate]. destruct (ext_idxs Mzero s zs) as [is'|] eqn:E; [|discriminate]. injection H as <-. cbn [List.length] in *. f_equal. apply (IH is' zs E). lia. }
      rewrite Hs. unfold s. rewrite gather_length. congruence.
    - rewrite <- (upds_upds nax (map even_up s) (map (fun _ => 1%nat) nax)) by (auto; rewrite Hl, map_length; reflexivity). apply valid_upds; auto. }
  rewrite E. reflexivity.
Qed.
(** one level of x is one level of the extended x *)
Lemma band_ext (M : list nat -> list nat -> list nat -> K) m nax k x : wf x -> good_axes (rank x) nax -> Forall (fun n => (2 <= n)%nat) (gather nax 0%nat (shp x)) ->
  bwn_band M m nax k (ext_even m nax x) = bwn_band M m nax k x.
Proof.
  intros Hw Hg H2. pose proof Hg as [Hn Hin]. set (s := gather nax 0%nat (shp x)) in *.
  assert (Hl : List.length (map even_up s) = List.length nax) by (unfold s; rewrite map_length; apply gather_length).
  assert (Hs : gather nax 0%nat (shp (ext_even m nax x)) = map even_up s) by (unfold ext_even; rewrite gather_along by (auto; exact Hl); reflexivity).
  assert (Hh : map (fun n => even_up n / 2)%nat (map even_up s) = map (fun n => even_up n / 2)%nat s) by (rewrite map_map; apply map_ext; intros n; rewrite even_up_id by apply even_up_even; reflexivity).
  unfold bwn_band. apply t_ext; [apply wf_make|apply wf_make|reflexivity| |].
  - rewrite !shp_along, Hs, Hh, shp_ext_even. fold s. apply upds_upds; [exact Hn|]. rewrite !map_length. reflexivity.
  - intros idx Hv. rewrite shp_along, Hs, Hh, shp_ext_even in Hv. fold s in Hv. rewrite upds_upds in Hv by (auto; rewrite !map_length; reflexivity).
    unfold along_axes. rewrite Hs. fold s. rewrite Hh. rewrite !get_make by (rewrite ?shp_ext_even; fold s; rewrite ?upds_upds by (auto; rewrite !map_length; reflexivity); exact Hv).
    unfold bwn_op. rewrite even_up_even_up. apply sumI_ext. intros js Hj. f_equal. rewrite ext_get_id by exact Hj.
    assert (Hlj : List.length js = List.length nax) by (rewrite (valid_length _ _ Hj); exact Hl).
    assert (Hli : List.length idx = List.length (shp x)) by (rewrite (valid_length _ _ Hv); apply upds_length).
    unfold ext_even, along_axes. fold s. rewrite get_make.
    + rewrite gather_upds; [|exact Hn|exact Hlj|intros d Hd; rewrite Hli; apply Hin; exact Hd]. apply ext_get_ext.
      * rewrite map_length, Hlj. unfold s. symmetry. apply gather_length.
      * eapply Forall_impl; [|exact H2]. intros n H. apply extendable2, H.
      * intros is His. f_equal. apply upds_upds; [exact Hn|]. rewrite (valid_length _ _ His). unfold s. rewrite gather_length. congruence.
    + assert (Q : upds nax (map even_up s) (upds nax (map (fun n => even_up n / 2)%nat s) (shp x)) = upds nax (map even_up s) (shp x)) by (apply upds_upds; [exact Hn|rewrite !map_length; reflexivity]).
      rewrite <- Q. apply valid_upds; auto.
Qed.
Lemma energy_level_zero (M : list nat -> list nat -> list nat -> K) nax x : wf x -> good_axes (rank x) nax ->
  let s := gather nax 0%nat (shp x) in Forall (fun n => (2 <= n)%nat) s -> orth_cols (map even_up s) (M (map even_up s)) ->
  sumL (all_bands (List.length nax)) (fun k => energy (bwn_band M Mzero nax k x)) = energy x.
Proof.
  intros Hw Hg s H2 Ho. rewrite <- (energy_ext_zero nax x Hg).
  rewrite (sumL_ext _ _ (fun k => energy (bwn_band M Mzero nax k (ext_even Mzero nax x)))) by (intros k _; rewrite band_ext by assumption; reflexivity).
  assert (Hs : gather nax 0%nat (shp (ext_even Mzero nax x)) = map even_up s).
  { unfold ext_even. rewrite gather_along; [reflexivity|exact Hg|]. rewrite map_length, gather_length. reflexivity. }
  apply energy_level_n; [apply wf_make|unfold ext_even; rewrite rank_along; exact Hg| |]; rewrite Hs; [|exact Ho].
  apply Forall_forall. intros n Hn. apply in_map_iff in Hn as (q & <- & _). apply even_up_even.
Qed.
Lemma energy_iter_zero (M : list nat -> list nat -> list nat -> K) nax ds L : (2 <= L)%nat ->
  (forall F : list bool -> K, F (repeat false (List.length nax)) + sumL ds F = sumL (all_bands (List.length nax)) F) ->
  (forall s, List.length s = List.length nax -> Forall (fun n => (L <= n)%nat) s -> Forall (fun n => (n mod 2 = 0)%nat) s -> orth_cols s (M s)) ->
  forall J x, wf x -> good_axes (rank x) nax -> fitsN L J (gather nax 0%nat (shp x)) ->
  energy (bwn_approx M Mzero nax J x) + sumL (rev (seq 0 J)) (fun j => sumL ds (fun k => energy (bwn_band M Mzero nax k (bwn_approx M Mzero nax j x)))) = energy x.
Proof.
  intros HL Hds HM. induction J as [|J IH]; intros x Hw Hg Hf.
  - cbn. ring.
  - destruct Hf as [Hn Hf]. set (s := gather nax 0%nat (shp x)) in *.
    set (lo := bwn_band M Mzero nax (repeat false (List.length nax))).
    destruct (band_facts M Mzero nax (repeat false (List.length nax)) x Hw Hg) as (B1 & B2 & _ & _ & B5). fold lo s in B1, B2, B5.
    assert (Eind : energy (bwn_approx M Mzero nax J (lo x)) + sumL (rev (seq 0 J)) (fun j => sumL ds (fun k => energy (bwn_band M Mzero nax k (bwn_approx M Mzero nax j (lo x))))) = energy (lo x)).
    { apply IH; solve [exact B1|rewrite B2; exact Hg|rewrite B5; exact Hf|assumption]. }
    assert (Hl : List.length s = List.length nax) by apply gather_length.
    assert (Ho : orth_cols (map even_up s) (M (map even_up s))).
    { apply HM.
      - rewrite map_length. exact Hl.
      - apply Forall_forall. intros n Hi. apply in_map_iff in Hi as (q & <- & Hq). rewrite Forall_forall in Hn. specialize (Hn q Hq). unfold even_up. lia.
      - apply Forall_forall. intros n Hi. apply in_map_iff in Hi as (q & <- & Hq). apply even_up_even. }
    assert (H2 : Forall (fun n => (2 <= n)%nat) s) by (eapply Forall_impl; [|exact Hn]; intros n H; cbn in H; lia).
    rewrite <- (energy_level_zero M nax x Hw Hg H2 Ho). rewrite <- (Hds (fun k => energy (bwn_band M Mzero nax k x))). fold lo. rewrite <- Eind.
    unfold bwn_approx. fold lo. rewrite iter_r. cbn [seq rev]. rewrite sumL_app. rewrite <- seq_shift, <- map_rev, sumL_map.
    rewrite (sumL_ext (rev (seq 0 J)) (fun j => sumL ds (fun k => energy (bwn_band M Mzero nax k (Nat.iter (S j) lo x)))) (fun j => sumL ds (fun k => energy (bwn_band M Mzero nax k (Nat.iter j lo (lo x)))))) by (intros j _; rewrite iter_r; reflexivity).
    cbn [sumL Nat.iter nat_rect]. ring.
Qed.

Variable LA : linalg K.
Hypothesis HD : domain K.
Hypothesis HR : formally_real K.
Variables (w : wavelet K) (L : nat) (method : string).
Hypothesis HLA : la_ok LA method.
Hypothesis B : orthogonal_bank L (dec_lo w) (dec_hi w) (rec_lo w) (rec_hi w).
Hypothesis HI : boundary_independent L (dec_lo w) (dec_hi w).
Notation zero := (Some (mode_name Mzero)).
Let HL : (2 <= L)%nat := ob_two _ _ _ _ _ B.

Theorem C73_energy_2d level axes o x o' c : wf x -> new_mwavedecn 2 w level (AxSeq axes) method zero true = Ok o -> mw2_call LA o x = (o', Ok c) ->
  energies (pc_tensors c) = energy x.
Proof using All.
  intros Hw Ho Hc. pose proof (nax_len w method Mzero level axes 2 o true x Ho) as Hn.
  destruct (C43_coefficients LA HD HR w L method Mzero HLA B HI level axes o x o' c Hw Ho Hc) as (lev & A & _ & HA & ->).
  apply new_mwn_inv in Ho as [Hl ->]. destruct (mw2_call_inv LA (mkMWN w level axes method zero true None [] [] false []) o' axes x _ Hw eq_refl Hl Hc) as (_ & Hax & _).
  rewrite energies2. apply (energy_iter_zero _ _ [bLH; bHL; bHH] L); auto.
  - intros F. rewrite Hn. unfold bLH, bHL, bHH. cbn. ring.
  - intros s' _ H1 H2. apply orth_tprod. rewrite Forall_forall in *. intros n Hin. apply HA; auto.
  - apply good_axes_ok, Hax.
  - apply fits_levels_n.
Qed.
Theorem C73_energy_2d_nonseparable level axes o x o' c : wf x -> new_mwavedecn 2 w level (AxSeq axes) method zero false = Ok o -> mw2_call LA o x = (o', Ok c) ->
  energies (pc_tensors c) = energy x.
Proof using All.
  intros Hw Ho Hc. pose proof (nax_len w method Mzero level axes 2 o false x Ho) as Hn.
  destruct (C43_nonseparable_coefficients LA HD HR w L method HLA B HI Mzero level axes o x o' c Hw Ho Hc) as (lev & A & _ & HA & ->).
  apply new_mwn_inv in Ho as [Hl ->]. destruct (mw2_call_inv LA (mkMWN w level axes method zero false None [] [] false []) o' axes x _ Hw eq_refl Hl Hc) as (_ & Hax & _).
  rewrite energies2. apply (energy_iter_zero _ _ [bHL; bLH; bHH] L); auto.
  - intros F. rewrite Hn. unfold bLH, bHL, bHH. cbn. ring.
  - intros s' Hs H1 H2. rewrite Hn in Hs. destruct s' as [|h [|v [|? ?]]]; try discriminate. inversion H1 as [|? ? Hh H1']; subst. inversion H1' as [|? ? Hv _]; subst.
    inversion H2 as [|? ? Eh H2']; subst. inversion H2' as [|? ? Ev _]; subst. apply orth_image; auto. apply (HA h v); assumption.
  - apply good_axes_ok, Hax.
  - apply fits_levels_n.
Qed.
Theorem C73_energy_3d level axes o x o' c : wf x -> new_mwavedecn 3 w level (AxSeq axes) method zero true = Ok o -> mw3_call LA o x = (o', Ok c) ->
  energies (pc_tensors c) = energy x.
Proof using All.
  intros Hw Ho Hc. pose proof (nax_len w method Mzero level axes 3 o true x Ho) as Hn.
  destruct (C45_coefficients LA HD HR w L method Mzero HLA B HI level axes o x o' c Hw Ho Hc) as (lev & A & _ & HA & ->).
  apply new_mwn_inv in Ho as [Hl ->]. destruct (mw3_call_inv LA (mkMWN w level axes method zero true None [] [] false []) o' axes x _ Hw eq_refl Hl Hc) as (_ & Hax & _).
  rewrite energies3. apply (energy_iter_zero _ _ bands3 L); auto.
  - intros F. rewrite Hn. unfold bands3. cbn. ring.
  - intros s' _ H1 H2. apply orth_tprod. rewrite Forall_forall in *. intros n Hin. apply HA; auto.
  - apply good_axes_ok, Hax.
  - apply fits_levels_n.
Qed.
Theorem C73_energy_1d level axis o x o' c : wf x -> new_mwavedec w level (AxInt axis) method zero = Ok o -> mw_call LA o x = (o', Ok c) ->
  energies (pc_tensors c) = energy x.
Proof using All.
  intros Hw Ho Hc. apply new_mw_inv in Ho as ->.
  destruct (mat1_outcome LA HD HR w L method Mzero HLA B HI level axis x o' c Hw Hc) as (Hd & Hax & He & lev & Hlev & ->). set (a := norm_axis (rank x) axis) in *. assert (Ha : (a < rank x)%nat) by (apply norm_axis_lt; exact Hax).
  set (J := bw_levels (Z.to_nat lev) L (even_up (nth a (shp x) 0%nat))). set (x1 := ext_even Mzero [a] x). set (A := Bm LA w method (ttag x)).
  assert (R1 : (a < rank x1)%nat) by (unfold x1, ext_even; rewrite rank_along; exact Ha). pose proof (good_axes1 _ _ R1) as Hg.
  rewrite <- (energy_ext_zero [a] x) by (apply good_axes1, Ha). fold x1.
  rewrite pc_tensors_list. unfold energies, bw_coeffs. cbn [sumL]. rewrite sumL_map.
  assert (Ra : forall j, (a < rank (bw_approx A Mzero a j x1))%nat) by (intros j; destruct (bw_approx_facts A Mzero a j x1 (wf_make _ _ _) R1) as (_ & Q & _); rewrite Q; exact R1).
  rewrite <- (energy_iter_zero (tprod A) [a] [[true]] L HL) with (J := J) (x := x1).
  - rewrite bw_approx1 by exact R1. f_equal. apply sumL_ext. intros j _. cbn [sumL]. rewrite bw_approx1 by exact R1. rewrite bw_band1 by apply Ra. ring.
  - intros F. cbn. ring.
  - intros s' _ H1 H2. apply orth_tprod. rewrite Forall_forall in *. intros n Hin. apply (Am_ok LA w method L (ttag x) (bank_mats LA HD HR (ttag x) w L method HLA B HI) n); auto.
  - apply wf_make.
  - exact Hg.
  - assert (Ex : gather [a] 0%nat (shp x1) = [even_up (nth a (shp x) 0%nat)]) by (unfold x1, ext_even; rewrite gather_along by (auto using good_axes1); reflexivity). rewrite Ex.
    assert (EJ : J = bwn_levels (Z.to_nat lev) L [even_up (nth a (shp x) 0%nat)]).
    { unfold J. apply bw_bwn_levels. }
    rewrite EJ. apply fits_levels_n.
Qed.
End EZ.
