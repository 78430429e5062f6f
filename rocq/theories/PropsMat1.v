(** C40: MatrixWavedec / MatrixWaverec (one-dimensional boundary wavelets). *)
From Coq Require Import List Arith ZArith Lia Bool String Ring.
From Coq Require Import ZifyNat ZifyBool.
From Verif Require Import Base Sums Tensor TensorFacts Util Perm Plumb Accept Spec Conv1 PadFacts CoreFacts AnalysisInv Synthesis Filters Wave1 Wave1Inv Rec1 SepFacts Lin Sparse SparseFacts SparseConv SpecMat SparseMM LinAlg GramSchmidt Mat1 MatOrth Boundary MatPre Mat1Facts Mat1Call Tags.
Import ListNotations.
Ltac Zify.zify_post_hook ::= Z.div_mod_to_equations.
Local Arguments Nat.div : simpl never.
Local Arguments Nat.modulo : simpl never.

Section PM.
Context {K : CRing}.
Add Ring Kring : (cr_th K).
Open Scope K_scope.
Implicit Types (t u x : tensor K) (w : wavelet K).

Lemma ok_injM {A} (a b : A) : Ok a = Ok b -> a = b.
Proof. congruence. Qed.
(** ** energy *)
Lemma sumI_axis (s : list nat) : forall a k (f : list nat -> K), (a < List.length s)%nat ->
  sumI (updn a k s) f = sumI (updn a 1%nat s) (fun idx => sumf k (fun i => f (updn a i idx))).
Proof.
  induction s as [|d s IH]; intros a k f Ha; [cbn in Ha; lia|]. destruct a as [|a]; cbn [updn sumI].
  - cbn [sumf]. rewrite sumI_sumf_swap. ring.
  - apply sumf_ext. intros i Hi. rewrite (IH a k (fun is => f (i :: is))) by (cbn in Ha; lia). apply sumI_ext. intros idx _. reflexivity.
Qed.
Lemma energy_axis x a : (a < rank x)%nat ->
  energy x = sumI (updn a 1%nat (shp x)) (fun idx => sumf (nth a (shp x) 0%nat) (fun i => get x (updn a i idx) * get x (updn a i idx))).
Proof.
  intros Ha. unfold energy. rewrite <- (updn_same a (shp x)) at 1. rewrite sumI_axis by exact Ha. reflexivity.
Qed.
Lemma energy_mat M k x a : (a < rank x)%nat ->
  energy (mat_axis M k a x) = sumI (updn a 1%nat (shp x)) (fun idx => sumf k (fun i =>
    mat_vec M (nth a (shp x) 0%nat) (fun j => get x (updn a j idx)) i * mat_vec M (nth a (shp x) 0%nat) (fun j => get x (updn a j idx)) i)).
Proof.
  intros Ha. rewrite (energy_axis _ a) by (rewrite rank_mat_axis; exact Ha). rewrite shp_mat_axis, updn_updn. apply sumI_ext. intros idx Hv.
  rewrite nth_updn_eq by exact Ha. apply sumf_ext. intros i Hi.
  assert (Hl : (a < List.length idx)%nat) by (pose proof (valid_length _ _ Hv) as Hl; rewrite updn_length in Hl; unfold rank in Ha; lia).
  assert (E : get (mat_axis M k a x) (updn a i idx) = mat_vec M (nth a (shp x) 0%nat) (fun j => get x (updn a j idx)) i).
  { rewrite get_mat_axis by (rewrite <- (updn_updn a k 1%nat); apply valid_updn; assumption). unfold mat_vec. apply sumf_ext. intros j Hj. rewrite updn_updn. rewrite nth_updn_eq by exact Hl. reflexivity. }
  rewrite E. reflexivity.
Qed.
Lemma parseval n (M : nat -> nat -> K) (v : nat -> K) : orthonormal_rows n n (fun i j => M j i) ->
  sumf n (fun i => mat_vec M n v i * mat_vec M n v i) = sumf n (fun j => v j * v j).
Proof.
  intros H. unfold mat_vec.
  transitivity (sumf n (fun i => sumf n (fun j => sumf n (fun k => (M i j * M i k) * (v j * v k))))).
  { apply sumf_ext. intros i Hi. rewrite <- sumf_mul_r. apply sumf_ext. intros j Hj. rewrite <- sumf_mul_l. apply sumf_ext. intros k Hk. ring. }
  rewrite sumf_swap. apply sumf_ext. intros j Hj. rewrite sumf_swap. rewrite (sumf_single n j).
  - rewrite sumf_mul_r. specialize (H j j Hj Hj). unfold dot in H. rewrite H. unfold delta. rewrite Nat.eqb_refl. ring.
  - exact Hj.
  - intros k Hk Hne. rewrite sumf_mul_r. specialize (H j k Hj Hk). unfold dot in H. rewrite H. unfold delta. destruct (Nat.eqb_spec j k); [congruence|]. ring.
Qed.
Lemma energy_level (A : nat -> nat -> nat -> K) m a x n : wf x -> (a < rank x)%nat -> nth a (shp x) 0%nat = n -> (n mod 2 = 0)%nat -> orthogonal n (A n) ->
  energy (bw_lo A m a x) + energy (bw_hi A m a x) = energy x.
Proof.
  intros Hw Ha Hn He [_ Ho]. unfold bw_lo, bw_hi, bw_size. rewrite Hn, (even_up_id n He).
  rewrite (ext_even_id m [a] x Hw (good_axes1 _ _ Ha)) by (constructor; [rewrite Hn; exact He|constructor]).
  rewrite !energy_mat by exact Ha. rewrite Hn, <- sumI_add. rewrite (energy_axis x a Ha), Hn. apply sumI_ext. intros idx _.
  rewrite <- (parseval n (A n) (fun j => get x (updn a j idx)) Ho). set (F := fun i => mat_vec (A n) n (fun j => get x (updn a j idx)) i * mat_vec (A n) n (fun j => get x (updn a j idx)) i).
  transitivity (sumf (n / 2 + n / 2) F); [rewrite sumf_app; reflexivity|]. f_equal. lia.
Qed.
Definition energies (l : list (tensor K)) : K := sumL l energy.
Lemma energy_coeffs (A : nat -> nat -> nat -> K) m a L : (2 <= L)%nat -> (forall n, (L <= n)%nat -> (n mod 2 = 0)%nat -> orthogonal n (A n)) ->
  forall J x, wf x -> (a < rank x)%nat -> Nat.divide (2 ^ J) (nth a (shp x) 0%nat) -> fitsJ L J (nth a (shp x) 0%nat) ->
  energies (bw_coeffs A m a J x) = energy x.
Proof.
  intros HL HA. unfold energies, bw_coeffs. induction J as [|J IH]; intros x Hw Ha Hd Hf.
  - cbn. ring.
  - destruct Hf as [Hn Hf]. set (n := nth a (shp x) 0%nat) in *. assert (He : (n mod 2 = 0)%nat) by (destruct Hd as [q Hq]; cbn [Nat.pow] in Hq; nia).
    rewrite (even_up_id n He) in Hf.
    assert (Hs : nth a (shp (bw_lo A m a x)) 0%nat = (n / 2)%nat) by (rewrite bw_lo_shp, nth_updn_eq by exact Ha; fold n; rewrite (even_up_id n He); reflexivity).
    assert (Hr : rank (bw_lo A m a x) = rank x) by (unfold rank; rewrite bw_lo_shp; apply updn_length).
    rewrite <- (energy_level A m a x n Hw Ha eq_refl He (HA n Hn He)). rewrite <- (IH (bw_lo A m a x)); [|apply wf_mat_axis|lia| |rewrite Hs; exact Hf].
    + cbn [seq]. cbn [rev]. unfold bw_approx. rewrite iter_r. cbn [sumL]. rewrite map_app, sumL_app. cbn [map sumL].
      assert (E : map (fun k => bw_hi A m a (Nat.iter (S k) (bw_lo A m a) x)) (rev (seq 0 J)) = map (fun k => bw_hi A m a (Nat.iter k (bw_lo A m a) (bw_lo A m a x))) (rev (seq 0 J))).
      { apply map_ext. intros k. rewrite iter_r. reflexivity. }
      rewrite <- seq_shift, <- map_rev, map_map, E. cbn [Nat.iter nat_rect]. ring.
    + rewrite Hs. destruct Hd as [q Hq]. exists q. cbn [Nat.pow] in Hq. nia.
Qed.

Variable LA : linalg K.
Hypothesis HD : domain K.
Hypothesis HR : formally_real K.

Lemma bank_mats g w L method : la_ok LA method -> orthogonal_bank L (dec_lo w) (dec_hi w) (rec_lo w) (rec_hi w) -> boundary_independent L (dec_lo w) (dec_hi w) ->
  mats_ok LA w method L g.
Proof.
  intros HLA B HI n Hn He. destruct (boundary_a_ok LA HD HR g w n L method HLA B HI Hn He) as (A & H1 & H2 & H3 & H4 & H5 & H6 & _). exists A. auto 10.
Qed.
Lemma new_mw_inv w level axis method odd o : new_mwavedec w level (AxInt axis) method odd = Ok o -> o = mkMW w level axis method odd None [] [] false [].
Proof.
  unfold new_mwavedec, ensure_axes. cbn. intros H. destruct (negb (orth_supported method)); [discriminate|]. destruct (negb _); [discriminate|]. injection H as <-. reflexivity.
Qed.
Lemma new_mr_inv w axis method r : new_mwaverec w (AxInt axis) method = Ok r -> r = mkMR w [axis] method [] None None false [].
Proof.
  unfold new_mwaverec, ensure_axes. cbn. intros H. destruct (negb (orth_supported method)); [discriminate|]. destruct (negb _); [discriminate|]. injection H as <-. reflexivity.
Qed.
(** a call that returns: what that says about the input *)
Lemma mw_call_inv (o o' : mwavedec K) x m c : wf x -> mw_odd o = Some (mode_name m) -> mw_call LA o x = (o', Ok c) ->
  let a := norm_axis (rank x) (mw_axis o) in
  is_dtype_supported (tdtype x) = true /\ axis_ok (rank x) (mw_axis o) /\ evenable m (nth a (shp x) 0%nat) /\
  exists lev, mw_lev (mw_wav o) (mw_level o) (even_up (nth a (shp x) 0%nat)) = Ok lev.
Proof.
  intros Hw Ho Hc a. unfold mw_call in Hc.
  destruct (preprocess_tensor x 1 (AxInt (mw_axis o)) false) as [[t0 ds]|e] eqn:Ep; [|discriminate].
  destruct (preprocess_tensor_inv _ _ _ _ _ Ep) as (Hdt & _ & axes & Hh & Hl & Hax). cbn in Hh. injection Hh as <-.
  assert (Hax' : axis_ok (rank x) (mw_axis o)) by (apply (Forall_inv (proj1 Hax))).
  rewrite (preprocess_tensor_ok x 1 (AxInt (mw_axis o)) [mw_axis o] false Hw Hdt) in Ep; auto.
  cbn [map] in Ep. fold a in Ep. cbn match in Ep. injection Ep as <- <-.
  pose proof (norm_axis_lt _ _ Hax') as Ha. fold a in Ha. pose proof (good_axes1 (rank x) a Ha) as Hga.
  assert (He : evenable m (nth a (shp x) 0%nat)).
  { rewrite dim_last_pre in Hc. destruct (Nat.eqb_spec (nth a (shp x) 0%nat mod 2) 0) as [H0|H0]; [left; exact H0|]. right.
    destruct (fwt_pad (pre_t [a] x) (mw_wav o) (mw_odd o) (Some (0%nat, 1%nat))) as [q|e] eqn:Eq; [|discriminate].
    unfold fwt_pad in Eq. rewrite Ho, translate_mode in Eq. cbn [rbind] in Eq.
    destruct (pad_dispatch_inv m (pre_t [a] x) [prodl (fsz [a] (shp x))] [nth a (shp x) 0%nat] [(0%nat, 1%nat)] q (pre_t_wf [a] x Hga) eq_refl eq_refl ltac:(cbn; lia) Eq) as (_ & _ & Hm).
    destruct m; cbn; try lia. specialize (Hm ltac:(discriminate)). inversion Hm as [|? ? ? ? Hp _]; subst. cbn [pmode pad_ok fst snd] in Hp. lia. }
  split; [exact Hdt|]. split; [exact Hax'|]. split; [exact He|].
  rewrite (first_pad (mw_wav o) m x a (mw_odd o) Hw Ha) in Hc; [|rewrite Ho; apply translate_mode|exact He].
  rewrite dim_last_pre in Hc. assert (HnX : nth a (shp (ext_even m [a] x)) 0%nat = even_up (nth a (shp x) 0%nat)) by (rewrite shp_ext_even; cbn [gather map upds]; apply nth_updn_eq, Ha).
  rewrite HnX in Hc. unfold mw_lev. destruct (mw_level o) as [l|].
  - destruct (l <=? 0)%Z; [discriminate|]. eauto.
  - destruct (mat_level (get_len (mw_wav o)) (even_up (nth a (shp x) 0%nat))) as [l|]; [eauto|discriminate].
Qed.

Section Bank.
Variables (w : wavelet K) (L : nat) (method : string) (m : mode).
Hypothesis HLA : la_ok LA method.
Hypothesis B : orthogonal_bank L (dec_lo w) (dec_hi w) (rec_lo w) (rec_hi w).
Hypothesis HI : boundary_independent L (dec_lo w) (dec_hi w).
Let HL := ob_two _ _ _ _ _ B.
Let Hdl := ob_len_lo _ _ _ _ _ B.
Lemma bank_rl : List.length (rec_lo w) = L.
Proof. rewrite (ob_rec_lo _ _ _ _ _ B), rev_length. exact Hdl. Qed.
Let Htr g n := boundary_s_transpose LA g w n L method B.

(** the coefficients: the boundary-wavelet transform of x (extended by one sample if its length is odd) with the
    orthogonal boundary matrices *)
Lemma coefficients1 level axis o x o' c : wf x -> new_mwavedec w level (AxInt axis) method (Some (mode_name m)) = Ok o -> mw_call LA o x = (o', Ok c) ->
  let a := norm_axis (rank x) axis in let n := even_up (nth a (shp x) 0%nat) in
  exists lev A, match level with Some l => lev = l /\ (0 < l)%Z | None => mat_level (get_len w) n = Ok lev end /\
    (forall k, (L <= k)%nat -> (k mod 2 = 0)%nat -> construct_boundary_a LA (ttag x) w k method = Ok (A k) /\ orthogonal k (mget (A k))) /\
    c = mkPC true (map PT (bw_coeffs (fun k => mget (A k)) m a (bw_levels (Z.to_nat lev) L n) (ext_even m [a] x))).
Proof.
  intros Hw Ho Hc a n. apply new_mw_inv in Ho. subst o.
  destruct (mw_call_inv (mkMW w level axis method (Some (mode_name m)) None [] [] false []) o' x m _ Hw eq_refl Hc) as (Hdt & Hax & He & lev & Hlev). cbn [mw_axis mw_wav mw_level] in *. fold a in He, Hlev. fold n in Hlev.
  destruct (mw_call_ok LA w method m L (ttag x) (bank_mats _ w L method HLA B HI) HL Hdl bank_rl (Htr _) (mkMW w level axis method (Some (mode_name m)) None [] [] false []) x axis (Some (mode_name m)) lev) as (o2 & E & _); auto.
  - apply translate_mode.
  - left. reflexivity.
  - rewrite E in Hc. apply (f_equal snd) in Hc. cbn [snd] in Hc. apply ok_injM in Hc. subst c.
    exists lev, (Am LA w method (ttag x)). split.
    + unfold mw_lev in Hlev. destruct level as [l|]; [|exact Hlev]. destruct (Z.leb_spec l 0); [discriminate|]. injection Hlev as <-. auto.
    + split; [|reflexivity]. intros k Hk Hk2. destruct (Am_ok LA w method L (ttag x) (bank_mats _ w L method HLA B HI) k Hk Hk2) as (H1 & _ & _ & _ & _ & H6). split; assumption.
Qed.
Theorem C40_coefficients level axis o x o' c : wf x -> new_mwavedec w level (AxInt axis) method (Some (mode_name m)) = Ok o -> mw_call LA o x = (o', Ok c) ->
  let a := norm_axis (rank x) axis in let n := even_up (nth a (shp x) 0%nat) in
  exists lev A, match level with Some l => lev = l /\ (0 < l)%Z | None => default_depth L [n] (Z.to_nat lev) end /\
    (forall k, (L <= k)%nat -> (k mod 2 = 0)%nat -> construct_boundary_a LA (ttag x) w k method = Ok (A k) /\ orthogonal k (mget (A k))) /\
    c = mkPC true (map PT (bw_coeffs (fun k => mget (A k)) m a (bw_levels (Z.to_nat lev) L n) (ext_even m [a] x))).
Proof.
  intros Hw Ho Hc a n. destruct (coefficients1 level axis o x o' c Hw Ho Hc) as (lev & A & Hlev & H). exists lev, A. split; [|exact H].
  destruct level as [l|]; [exact Hlev|]. apply mat_level_depth; [exact HL|]. rewrite <- Hdl. exact Hlev.
Qed.

(** C40: MatrixWaverec(MatrixWavedec(x)) is x, extended by one sample if its length along the axis is odd *)
Theorem C40_reconstruction level axis o x o' c r : wf x -> new_mwavedec w level (AxInt axis) method (Some (mode_name m)) = Ok o ->
  mw_call LA o x = (o', Ok c) -> new_mwaverec w (AxInt axis) method = Ok r ->
  snd (mr_call LA r (pc_items c)) = Ok (ext_even m [norm_axis (rank x) axis] x).
Proof.
  intros Hw Ho Hc Hr. apply new_mw_inv in Ho. apply new_mr_inv in Hr. subst o r.
  destruct (mw_call_inv (mkMW w level axis method (Some (mode_name m)) None [] [] false []) o' x m _ Hw eq_refl Hc) as (Hdt & Hax & He & lev & Hlev). cbn [mw_axis mw_wav mw_level] in *. set (a := norm_axis (rank x) axis) in *. set (n := even_up (nth a (shp x) 0%nat)) in *.
  destruct (mw_call_ok LA w method m L (ttag x) (bank_mats _ w L method HLA B HI) HL Hdl bank_rl (Htr _) (mkMW w level axis method (Some (mode_name m)) None [] [] false []) x axis (Some (mode_name m)) lev) as (o2 & E & _); auto.
  { apply translate_mode. }
  { left. reflexivity. }
  rewrite E in Hc. apply (f_equal snd) in Hc. cbn [snd] in Hc. apply ok_injM in Hc. subst c. cbn [pc_items]. fold a n. set (X := ext_even m [a] x).
  pose proof (norm_axis_lt _ _ Hax) as Ha. fold a in Ha.
  assert (HrX : rank X = rank x) by apply rank_along. assert (HnX : nth a (shp X) 0%nat = n) by (unfold X; rewrite shp_ext_even; cbn [gather map upds]; apply nth_updn_eq, Ha).
  assert (HaX : norm_axis (rank X) axis = a) by (rewrite HrX; reflexivity).
  destruct (mr_call_ok LA w method m L (ttag x) (bank_mats _ w L method HLA B HI) HL Hdl bank_rl (Htr _) (mkMR w [axis] method [] None None false []) X axis (bw_levels (Z.to_nat lev) L n)) as (r2 & E2 & _); auto.
  - apply wf_make.
  - rewrite HrX. exact Hax.
  - rewrite HaX, HnX. apply fits_levels.
  - left. reflexivity.
  - rewrite HaX in E2. rewrite E2. cbn [snd]. destruct (Nat.eqb _ 0); [reflexivity|]. f_equal. apply ext_even_id; [apply wf_make|rewrite HrX; apply good_axes1, Ha|]. constructor; [|constructor]. rewrite HnX. apply even_up_even.
Qed.
Theorem C40_perfect_reconstruction level axis o x o' c r : wf x -> new_mwavedec w level (AxInt axis) method (Some (mode_name m)) = Ok o ->
  mw_call LA o x = (o', Ok c) -> new_mwaverec w (AxInt axis) method = Ok r ->
  exists y, snd (mr_call LA r (pc_items c)) = Ok y /\ agrees_on x y /\
    shp y = updn (norm_axis (rank x) axis) (let n := nth (norm_axis (rank x) axis) (shp x) 0%nat in if Nat.odd n then S n else n) (shp x).
Proof.
  intros Hw Ho Hc Hr. eexists. split; [apply (C40_reconstruction level axis o x o' c r); assumption|].
  apply new_mw_inv in Ho. subst o. destruct (mw_call_inv (mkMW w level axis method (Some (mode_name m)) None [] [] false []) o' x m _ Hw eq_refl Hc) as (_ & Hax & _). cbn [mw_axis] in Hax.
  split; [apply ext_even_agrees; [exact Hw|apply good_axes1, norm_axis_lt, Hax]|]. rewrite shp_ext_even. cbn [gather map upds]. set (k := nth (norm_axis (rank x) axis) (shp x) 0%nat). f_equal. unfold even_up.
  pose proof (Nat.div2_odd k) as Hk. pose proof (Nat.mod_upper_bound k 2 ltac:(lia)). cbv zeta. destruct (Nat.odd k); cbn [Nat.b2n] in Hk; lia.
Qed.
(** no padding: the length is even and divisible by 2^levels; the coefficients have the energy of x *)
Theorem C40_energy level axis o x o' c : wf x -> new_mwavedec w level (AxInt axis) method (Some (mode_name m)) = Ok o -> mw_call LA o x = (o', Ok c) ->
  let n := nth (norm_axis (rank x) axis) (shp x) 0%nat in
  Nat.divide 2 n -> Nat.divide (2 ^ (List.length (pc_items c) - 1)) n ->
  exists ts, pc_items c = map PT ts /\ energies ts = energy x.
Proof.
  intros Hw Ho Hc n H2 Hd. destruct (C40_coefficients level axis o x o' c Hw Ho Hc) as (lev & A & _ & HA & ->). cbn [pc_items] in *. fold n in Hd |- *.
  apply new_mw_inv in Ho. subst o. destruct (mw_call_inv (mkMW w level axis method (Some (mode_name m)) None [] [] false []) o' x m _ Hw eq_refl Hc) as (_ & Hax & _). cbn [mw_axis] in Hax.
  pose proof (norm_axis_lt _ _ Hax) as Ha. set (a := norm_axis (rank x) axis) in *.
  assert (He : (n mod 2 = 0)%nat) by (destruct H2 as [q Hq]; lia).
  eexists. split; [reflexivity|]. rewrite map_length in Hd. unfold bw_coeffs in Hd. cbn [List.length] in Hd. rewrite map_length, rev_length, seq_length in Hd.
  rewrite Nat.sub_succ, Nat.sub_0_r in Hd. rewrite (even_up_id n He) in Hd |- *.
  rewrite (ext_even_id m [a] x Hw (good_axes1 _ _ Ha)) by (constructor; [exact He|constructor]).
  apply (energy_coeffs _ m a L HL); auto.
  - intros k Hk Hk2. apply HA; assumption.
  - apply fits_levels.
Qed.

(** exactly which inputs a fresh object accepts *)
Theorem C40_accepts level axis x : wf x ->
  let n := nth (norm_axis (rank x) axis) (shp x) 0%nat in
  (exists o o' c, new_mwavedec w level (AxInt axis) method (Some (mode_name m)) = Ok o /\ mw_call LA o x = (o', Ok c)) <->
  (is_dtype_supported (tdtype x) = true /\ (- Z.of_nat (rank x) <= axis < Z.of_nat (rank x))%Z /\ (m = Mreflect -> n <> 1%nat) /\
   match level with None => (0 < n)%nat | Some l => (0 < l)%Z end).
Proof.
  intros Hw n. split.
  - intros (o & o' & c & Ho & Hc). apply new_mw_inv in Ho. subst o.
    destruct (mw_call_inv (mkMW w level axis method (Some (mode_name m)) None [] [] false []) o' x m c Hw eq_refl Hc) as (Hdt & Hax & He & lev & Hlev). cbn [mw_axis mw_wav mw_level] in *. fold n in He, Hlev.
    split; [exact Hdt|]. split; [exact Hax|]. split.
    + intros -> E. rewrite E in He. destruct He as [He|He]; cbn in He; lia.
    + unfold mw_lev in Hlev. destruct level as [l|]; [destruct (Z.leb_spec l 0); [discriminate|assumption]|]. unfold mat_level in Hlev. destruct (Nat.eqb_spec (even_up n) 0); [discriminate|]. unfold even_up in *. lia.
  - intros (Hdt & Hax & Hm & Hl).
    assert (Hsup : orth_supported method = true) by (destruct HLA as [(-> & _)|(-> & _)]; reflexivity).
    exists (mkMW w level axis method (Some (mode_name m)) None [] [] false []).
    assert (Hlev : exists lev, mw_lev w level (even_up n) = Ok lev).
    { unfold mw_lev. destruct level as [l|]; [destruct (Z.leb_spec l 0); [lia|eauto]|]. unfold mat_level. destruct (Nat.eqb_spec (even_up n) 0); [unfold even_up in *; lia|]. destruct (Nat.leb _ _); eauto. }
    destruct Hlev as [lev Hlev].
    assert (He : evenable m n) by (unfold evenable; destruct m; cbn; try lia; specialize (Hm eq_refl); lia).
    destruct (mw_call_ok LA w method m L (ttag x) (bank_mats _ w L method HLA B HI) HL Hdl bank_rl (Htr _) (mkMW w level axis method (Some (mode_name m)) None [] [] false []) x axis (Some (mode_name m)) lev) as (o2 & E & _); auto.
    { apply translate_mode. }
    { left. reflexivity. }
    eexists. eexists. split; [|exact E]. unfold new_mwavedec, ensure_axes. cbn. rewrite Hsup. cbn [negb]. rewrite bank_rl, Hdl, Nat.eqb_refl. reflexivity.
Qed.

(** ** C42: reuse *)
(** the results of a sequence of calls on one object *)
Fixpoint mw_run (o : mwavedec K) (xs : list (tensor K)) : list (result (pycoeffs K)) :=
  match xs with [] => [] | x :: xs' => let oc := mw_call LA o x in snd oc :: mw_run (fst oc) xs' end.
Fixpoint mr_run (r : mwaverec K) (cs : list (list (pyval K))) : list (result (tensor K)) :=
  match cs with [] => [] | c :: cs' => let ry := mr_call LA r c in snd ry :: mr_run (fst ry) cs' end.

Lemma mw_same g odd l axis (o : mwavedec K) x : mw_wav o = w -> mw_method o = method -> mw_odd o = odd -> mw_axis o = axis -> mw_level o = Some l -> mw_cached LA w method L g o ->
  wf x -> ttag x = g ->
  let fresh := mkMW w (Some l) axis method odd None [] [] false [] in
  snd (mw_call LA o x) = snd (mw_call LA fresh x) /\
  let o' := fst (mw_call LA o x) in mw_wav o' = w /\ mw_method o' = method /\ mw_odd o' = odd /\ mw_axis o' = axis /\ mw_level o' = Some l /\ mw_cached LA w method L g o'.
Proof.
  intros Ew Em Eo Ea El Hinv Hw Hg fresh. unfold mw_call, fresh. cbn [mw_wav mw_method mw_odd mw_axis mw_level mw_len mw_mats with_level]. rewrite Ew, Em, Eo, Ea, El.
  destruct (preprocess_tensor x 1 (AxInt axis) false) as [[t0 ds]|e] eqn:Ep; [|cbn [snd fst]; auto 10].
  pose proof (preprocess_tensor_tag _ _ _ _ _ _ Ep) as Ht0.
  destruct (if Nat.eqb (dim_last t0 1 mod 2) 0 then Ok t0 else fwt_pad t0 w odd (Some (0%nat, 1%nat))) as [t|e] eqn:Et; [|cbn [snd fst]; auto 10].
  assert (Ht : ttag t = g).
  { destruct (Nat.eqb _ 0); [injection Et as <-; congruence|]. unfold fwt_pad in Et. apply rbind_ok in Et as (pm & _ & Et). apply tag_dispatch in Et. congruence. }
  set (n := dim_last t 1). destruct (l <=? 0)%Z eqn:Hl.
  - cbn [snd fst with_level mw_wav mw_method mw_odd mw_axis mw_level]. rewrite Ew, Em, Eo, Ea. repeat (split; [reflexivity|]). left. cbn [with_level mw_mats].
    destruct Hinv as [Hi|(n0 & lev & _ & I2 & I3 & _)]; [exact Hi|]. rewrite El in I2. injection I2 as <-. replace (Z.to_nat l) with 0%nat in I3 by lia. exact I3.
  - destruct (build_analysis_eq LA w method L g (bank_mats _ w L method HLA B HI) HL Hdl bank_rl (Htr _) (Z.to_nat l) n [] [] false []) as [sz Hbuild]. cbn [app orb] in Hbuild.
    rewrite Ht, Hbuild. cbn [orb]. cbn match.
    set (J := bw_levels (Z.to_nat l) L n) in *.
    assert (Hcase : forall P : Prop, (mw_mats o = [] -> P) -> (mw_mats o <> [] -> mw_len o = Some n -> mw_mats o = bmats LA w method g J n -> mw_pads o = bpads J n -> P) -> (mw_mats o <> [] -> (match mw_len o with Some l => Nat.eqb l n | None => false end) = false -> P) -> P).
    { intros P P1 P2 P3. destruct (mw_mats o) as [|a0 ms] eqn:Ems; [auto|]. destruct (match mw_len o with Some l => Nat.eqb l n | None => false end) eqn:Elen; [|apply P3; [discriminate|reflexivity]].
      destruct (mw_len o) as [l0|] eqn:El0; [|discriminate]. apply Nat.eqb_eq in Elen. subst l0. destruct Hinv as [Hi|(n0 & lev & I1 & I2 & I3 & I4)]; [congruence|].
      rewrite El in I2. injection I2 as <-. rewrite El0 in I1. injection I1 as <-. fold J in I3, I4. apply P2; congruence. }
    assert (Hm : forall o1, mw_wav o1 = w -> mw_method o1 = method -> mw_odd o1 = odd -> mw_axis o1 = axis -> mw_level o1 = Some l -> mw_len o1 = Some n -> mw_mats o1 = bmats LA w method g J n -> mw_pads o1 = bpads J n ->
      mw_wav o1 = w /\ mw_method o1 = method /\ mw_odd o1 = odd /\ mw_axis o1 = axis /\ mw_level o1 = Some l /\ mw_cached LA w method L g o1).
    { intros o1 G1 G2 G3 G4 G5 G6 G7 G8. repeat (split; [assumption|]). right. exists n, l. auto. }
    apply Hcase.
    + intros Ems. cbn [with_level mw_mats]. rewrite Ems. cbn [orb]. cbn match. split; [cbn [with_mats with_level mw_wav mw_odd mw_mats mw_pads mw_axis snd fst]; rewrite ?Ew, ?Em, ?Eo, ?Ea; reflexivity|]. cbn [fst]. cbv zeta. apply Hm; cbn [with_mats with_level mw_wav mw_method mw_odd mw_axis mw_level mw_len mw_mats mw_pads]; try reflexivity; assumption.
    + intros Hne I1 I3 I4. cbn [with_level mw_mats]. rewrite I1, Nat.eqb_refl. cbn [negb]. destruct (mw_mats o) as [|a0 ms] eqn:Ems; [congruence|]. cbn [orb]. cbn match.
      split; [cbn [with_mats with_level mw_wav mw_odd mw_mats mw_pads mw_axis snd fst]; rewrite Ew, Eo, Ea, ?Ems, I4, I3; reflexivity|]. cbn [fst]. cbv zeta. apply Hm; cbn [with_mats with_level mw_wav mw_method mw_odd mw_axis mw_level mw_len mw_mats mw_pads]; congruence.
    + intros Hne I1. rewrite I1. cbn [negb]. rewrite orb_true_r. split; [cbn [with_mats with_level mw_wav mw_odd mw_mats mw_pads mw_axis snd fst]; rewrite ?Ew, ?Em, ?Eo, ?Ea; reflexivity|]. cbn [fst]. cbv zeta. apply Hm; cbn [with_mats with_level mw_wav mw_method mw_odd mw_axis mw_level mw_len mw_mats mw_pads]; try reflexivity; assumption.
Qed.
(** C42, MatrixWavedec with an explicit level: on any sequence of inputs of one dtype and device (of any shapes,
    accepted or not) every call gives what a fresh object gives *)
Theorem C42_wavedec g l axis odd o xs : new_mwavedec w (Some l) (AxInt axis) method odd = Ok o ->
  Forall (fun x => wf x /\ ttag x = g) xs ->
  mw_run o xs = map (fun x => snd (mw_call LA o x)) xs.
Proof.
  intros Ho Hxs. apply new_mw_inv in Ho. subst o.
  set (fresh := mkMW w (Some l) axis method odd None [] [] false []).
  assert (G : forall o, mw_wav o = w -> mw_method o = method -> mw_odd o = odd -> mw_axis o = axis -> mw_level o = Some l -> mw_cached LA w method L g o -> mw_run o xs = map (fun x => snd (mw_call LA fresh x)) xs).
  { induction Hxs as [|x xs [Hw Hg] _ IH]; intros o E1 E2 E3 E4 E5 E6; [reflexivity|]. cbn [mw_run map]. cbv zeta.
    destruct (mw_same g odd l axis o x E1 E2 E3 E4 E5 E6 Hw Hg) as (H0 & H1 & H2 & H3 & H4 & H5 & H6). fold fresh in H0. rewrite H0. f_equal. apply IH; assumption. }
  apply G; try reflexivity. left. reflexivity.
Qed.

Lemma mr_same g axes (r : mwaverec K) cs : mr_wav r = w -> mr_method r = method -> mr_axes r = axes -> mr_cached LA w method L g r ->
  tagged g (mkPC true cs) ->
  let fresh := mkMR w axes method [] None None false [] in
  snd (mr_call LA r cs) = snd (mr_call LA fresh cs) /\
  let r' := fst (mr_call LA r cs) in mr_wav r' = w /\ mr_method r' = method /\ mr_axes r' = axes /\ mr_cached LA w method L g r'.
Proof.
  intros Ew Em Ea Hinv Hcs fresh. unfold mr_call, fresh. cbn [mr_wav mr_method mr_axes mr_level mr_len mr_mats]. rewrite Ew, Em, Ea.
  destruct (let* pc := preprocess_coeffs (mkPC true cs) 1 (AxSeq axes) false in let* g := check_same_device_dtype (fst pc) in let* ts := rmap as_tensor (pc_items (fst pc)) in Ok (ts, snd pc, g)) as [[[ts ds] g']|e] eqn:Ep; [|cbn [snd fst]; auto 10].
  assert (Hg : g' = g).
  { apply rbind_ok in Ep as ([c ds'] & Hp & Ep). apply rbind_ok in Ep as (g0 & Hc & Ep). apply rbind_ok in Ep as (ts0 & _ & Ep). injection Ep as _ _ <-.
    pose proof (preprocess_tagged _ _ _ _ _ _ _ Hp Hcs) as Ht. cbn [fst] in Hc. unfold check_same_device_dtype in Hc. destruct (pc_items c) as [|v l] eqn:Ei; [discriminate|].
    apply rbind_ok in Hc as (t & Hv & Hc). apply rbind_ok in Hc as (? & _ & Hc). apply rbind_ok in Hc as (? & _ & Hc). injection Hc as <-.
    destruct v; try discriminate. injection Hv as ->. apply Ht. unfold pc_tensors. rewrite Ei. left. reflexivity. }
  subst g'. set (lvl := (List.length ts - 1)%nat). set (len := match rev ts with t :: _ => (dim_last t 1 * 2)%nat | [] => 0%nat end).
  destruct (build_synthesis_eq LA w method L g (bank_mats _ w L method HLA B HI) HL Hdl bank_rl (Htr _) lvl len [] false []) as [sz Hbuild]. cbn [app orb] in Hbuild.
  rewrite Hbuild. cbn [orb]. cbn match.
  destruct (mr_mats r) as [|a0 ms] eqn:Ems.
  - cbn [orb]. cbn match. cbn [snd fst mr_mats mr_axes mr_wav mr_method]. split; [reflexivity|]. repeat (split; [reflexivity|]). right. exists lvl, len. auto.
  - cbn [orb]. destruct (match mr_level r with Some l => Nat.eqb l lvl | None => false end && match mr_len r with Some l => Nat.eqb l len | None => false end) eqn:Er; cbn [negb].
    + destruct Hinv as [Hi|(lvl' & len' & I1 & I2 & I3)]; [congruence|]. rewrite I1, I2 in Er. apply andb_true_iff in Er as [B1 B2]. apply Nat.eqb_eq in B1, B2. subst lvl' len'.
      cbn [snd fst mr_mats mr_axes mr_wav mr_method]. split; [rewrite Ea, I3; reflexivity|]. cbv zeta. split; [exact Ew|]. split; [exact Em|]. split; [exact Ea|]. right. exists lvl, len. auto.
    + cbn [snd fst mr_mats mr_axes mr_wav mr_method]. split; [reflexivity|]. repeat (split; [reflexivity|]). right. exists lvl, len. auto.
Qed.
(** C42, MatrixWaverec: on any sequence of coefficient lists of one dtype and device *)
Theorem C42_waverec g axis r css : new_mwaverec w (AxInt axis) method = Ok r ->
  Forall (fun cs => forall t, In t (pc_tensors (mkPC true cs)) -> ttag t = g) css ->
  mr_run r css = map (fun cs => snd (mr_call LA r cs)) css.
Proof.
  intros Hr Hcs. apply new_mr_inv in Hr. subst r.
  set (fresh := mkMR w [axis] method [] None None false []).
  assert (G : forall r, mr_wav r = w -> mr_method r = method -> mr_axes r = [axis] -> mr_cached LA w method L g r -> mr_run r css = map (fun cs => snd (mr_call LA fresh cs)) css).
  { induction Hcs as [|cs css Hg _ IH]; intros r E1 E2 E3 E4; [reflexivity|]. cbn [mr_run map]. cbv zeta.
    destruct (mr_same g [axis] r cs E1 E2 E3 E4 Hg) as (H0 & H1 & H2 & H3 & H4). fold fresh in H0. rewrite H0. f_equal. apply IH; assumption. }
  apply G; try reflexivity. left. reflexivity.
Qed.
(** C42 with level=None: the first accepted input that has a level fixes the level; from then on the object behaves as
    a fresh object with that explicit level on every input, the first included *)
Theorem C42_wavedec_default g axis o x o' c xs : new_mwavedec w None (AxInt axis) method (Some (mode_name m)) = Ok o ->
  wf x -> ttag x = g -> Forall (fun x => wf x /\ ttag x = g) xs ->
  mw_call LA o x = (o', Ok c) -> (2 <= List.length (pc_items c))%nat ->
  exists lev ol, default_depth L [even_up (nth (norm_axis (rank x) axis) (shp x) 0%nat)] (Z.to_nat lev) /\ (0 < lev)%Z /\
    new_mwavedec w (Some lev) (AxInt axis) method (Some (mode_name m)) = Ok ol /\
    mw_run o (x :: xs) = map (fun x => snd (mw_call LA ol x)) (x :: xs).
Proof.
  intros Ho Hw Hg Hxs Hc Hlen. destruct (coefficients1 None axis o x o' c Hw Ho Hc) as (lev & A & Hlev & _ & Hcc).
  set (n := even_up (nth (norm_axis (rank x) axis) (shp x) 0%nat)) in *.
  assert (Hpos : (0 < lev)%Z).
  { destruct (Z.ltb_spec 0 lev) as [|Hn]; [assumption|]. rewrite Hcc in Hlen. cbn [pc_items] in Hlen. rewrite map_length in Hlen. unfold bw_coeffs in Hlen. replace (Z.to_nat lev) with 0%nat in Hlen by lia. cbn in Hlen. lia. }
  assert (Hol : new_mwavedec w (Some lev) (AxInt axis) method (Some (mode_name m)) = Ok (mkMW w (Some lev) axis method (Some (mode_name m)) None [] [] false [])).
  { unfold new_mwavedec in *. apply rbind_ok in Ho as (axs & Ha & Ho). rewrite Ha. cbn [rbind]. destruct (negb (orth_supported method)); [discriminate|]. destruct (negb _); [discriminate|].
    unfold ensure_axes in Ha. cbn in Ha. injection Ha as <-. reflexivity. }
  exists lev, (mkMW w (Some lev) axis method (Some (mode_name m)) None [] [] false []). split; [apply mat_level_depth; [exact HL|rewrite <- Hdl; exact Hlev]|]. split; [exact Hpos|]. split; [exact Hol|].
  rewrite <- (C42_wavedec g lev axis (Some (mode_name m)) _ (x :: xs) Hol) by (constructor; auto).
  enough (E : mw_call LA o x = mw_call LA (mkMW w (Some lev) axis method (Some (mode_name m)) None [] [] false []) x) by (cbn [mw_run]; cbv zeta; rewrite E; reflexivity).
  apply new_mw_inv in Ho. subst o.
  destruct (mw_call_inv (mkMW w None axis method (Some (mode_name m)) None [] [] false []) o' x m _ Hw eq_refl Hc) as (Hdt & Hax & He & _). cbn [mw_axis] in *.
  set (a := norm_axis (rank x) axis) in *. pose proof (norm_axis_lt _ _ Hax) as Ha. fold a in Ha.
  unfold mw_call. cbn [mw_axis mw_wav mw_odd mw_level mw_len mw_mats mw_method with_level].
  rewrite (preprocess_tensor_ok x 1 (AxInt axis) [axis] false Hw Hdt); auto using axis_axes_ok.
  cbn [map]. fold a. cbn match.
  rewrite (first_pad w m x a (Some (mode_name m)) Hw Ha) by (auto using translate_mode).
  rewrite dim_last_pre. assert (HnX : nth a (shp (ext_even m [a] x)) 0%nat = n) by (rewrite shp_ext_even; cbn [gather map upds]; apply nth_updn_eq, Ha).
  rewrite HnX, Hlev. cbn [rbind]. destruct (Z.leb_spec lev 0); [lia|]. reflexivity.
Qed.
End Bank.
End PM.
