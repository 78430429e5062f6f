(** C39, C42 and C43 for separable=False: the boundary matrices of whole images, MatrixWavedec2 and MatrixWaverec2. *)
From Coq Require Import List Arith ZArith Lia Bool String Ring.
From Coq Require Import ZifyNat ZifyBool.
From Verif Require Import Base Sums Tensor TensorFacts Util Perm Plumb Accept Spec Conv1 Conv2 PadFacts CoreFacts AnalysisInv Synthesis Filters Wave1 Wave1Inv Rec1 RecN Sep SepFacts Lin Sparse SparseFacts SpecMat SpecMatN SparseMM LinAlg PropsOrth GramSchmidt Mat1 MatN MatOrth Boundary Boundary2 MatPre Mat1Facts Mat1Call Tags PropsMat1 MatNFacts MatNLoop MatNSep MatNNon MatNCall PropsMatN PropsMatN2.
Import ListNotations.
Ltac Zify.zify_post_hook ::= Z.div_mod_to_equations.
Local Arguments Nat.div : simpl never.
Local Arguments Nat.modulo : simpl never.

Definition twod (s : list nat) : Prop := List.length s = 2.
Lemma twod_map (f : nat -> nat) s : twod s -> twod (map f s). Proof. unfold twod. rewrite map_length. auto. Qed.

Section PNN.
Context {K : CRing}.
Add Ring Kring : (cr_th K).
Open Scope K_scope.
Implicit Types (t u x : tensor K) (w : wavelet K).
Variable LA : linalg K.
Hypothesis HD : domain K.
Hypothesis HR : formally_real K.
Section Bank.
Variables (w : wavelet K) (L : nat) (method : string).
Hypothesis HLA : la_ok LA method.
Hypothesis B : orthogonal_bank L (dec_lo w) (dec_hi w) (rec_lo w) (rec_hi w).
Hypothesis HI : boundary_independent L (dec_lo w) (dec_hi w).
Let HL := ob_two _ _ _ _ _ B.
Let Hdl := ob_len_lo _ _ _ _ _ B.
Let Hrl : List.length (rec_lo w) = L := bank_rl w L B.

Lemma bmats_len (mf : list nat -> list (smat K)) J : forall s, List.length (bmatsN mf J s) = J.
Proof. induction J as [|J IH]; intros s; [reflexivity|]. cbn [bmatsN List.length]. rewrite IH. reflexivity. Qed.
(** C39 in two dimensions: an orthogonal matrix on images stored column by column, its transpose, and the rows that do
    not stick out - the tensor product of two shifted filters *)
Definition filter_of (d : bool) : list K := if d then dec_hi w else dec_lo w.
Definition half_row (n : nat) (d : bool) (k : nat) : nat := if d then (n / 2 + k)%nat else k.
Theorem C39_boundary_matrices_2d g h v : (L <= h)%nat -> (L <= v)%nat -> (h mod 2 = 0)%nat -> (v mod 2 = 0)%nat ->
  exists A S, construct_boundary_a2 LA g w h v method = Ok A /\ construct_boundary_s2 LA g w h v method = Ok S /\
    s_tag A = g /\ s_rows A = (v * h)%nat /\ s_cols A = (v * h)%nat /\ orthogonal (v * h) (mget A) /\
    s_tag S = g /\ s_rows S = (v * h)%nat /\ s_cols S = (v * h)%nat /\ (forall i j, mget S i j = mget A j i) /\
    (forall d1 d2 i j k l, (i < h / 2)%nat -> (j < v / 2)%nat -> (k < h)%nat -> (l < v)%nat -> complete_row L h i -> complete_row L v j ->
       mget A (image_row h v (half_row h d1 i) (half_row v d2 j)) (image_col h k l) = shifted (filter_of d1) L i k * shifted (filter_of d2) L j l).
Proof.
  intros H1 H2 E1 E2. destruct (boundary_2_ok LA HD HR w L method HLA B HI g h v H1 H2 E1 E2) as (A & S & A1 & A2 & A3 & A4 & A5 & A6 & A7 & A8 & A9 & A10 & A11 & A12 & A13).
  exists A, S. repeat (split; [assumption|]). intros d1 d2 i j k l Hi Hj Hk Hl [C1 C2] [D1 D2]. rewrite image_row_rix, image_col_cix.
  assert (Kh : forall n d k, (n mod 2 = 0)%nat -> (k < n / 2)%nat -> (half_row n d k < n)%nat /\ fsel w n (half_row n d k) = filter_of d /\ ksel n (half_row n d k) = k).
  { intros n d k0 He Hk0. unfold half_row, fsel, ksel, filter_of. destruct d; [destruct (Nat.ltb_spec (n / 2 + k0) (n / 2)); [lia|]; repeat split; lia|destruct (Nat.ltb_spec k0 (n / 2)); [|lia]; repeat split; lia]. }
  destruct (Kh h d1 i E1 Hi) as (I1 & I2 & I3). destruct (Kh v d2 j E2 Hj) as (J1 & J2 & J3).
  rewrite A13; [rewrite I2, I3, J2, J3; reflexivity|assumption|assumption|assumption|assumption|]. unfold trunc2, truncated. rewrite I3, J3. lia.
Qed.

Definition A2 (g : tag) (h v : nat) : smat K := match construct_boundary_a2 LA g w h v method with Ok a => a | Raise _ => mkS g 0 0 [] end.
Definition S2 (g : tag) (h v : nat) : smat K := match construct_boundary_s2 LA g w h v method with Ok a => a | Raise _ => mkS g 0 0 [] end.
Lemma A2_ok g h v : (L <= h)%nat -> (L <= v)%nat -> (h mod 2 = 0)%nat -> (v mod 2 = 0)%nat ->
  construct_boundary_a2 LA g w h v method = Ok (A2 g h v) /\ construct_boundary_s2 LA g w h v method = Ok (S2 g h v) /\
  (s_tag (A2 g h v) = g /\ s_rows (A2 g h v) = (v * h)%nat /\ s_cols (A2 g h v) = (v * h)%nat /\ orthogonal (v * h) (mget (A2 g h v)) /\
   s_tag (S2 g h v) = g /\ s_rows (S2 g h v) = (v * h)%nat /\ s_cols (S2 g h v) = (v * h)%nat /\ (forall i j, mget (S2 g h v) i j = mget (A2 g h v) j i)).
Proof.
  intros H1 H2 E1 E2. destruct (boundary_2_ok LA HD HR w L method HLA B HI g h v H1 H2 E1 E2) as (A & S & C1 & C2 & C3 & C4 & C5 & C6 & C7 & C8 & C9 & C10 & C11 & C12 & _).
  unfold A2, S2. rewrite C1, C2. auto 12.
Qed.
Let HA g h v : (L <= h)%nat -> (L <= v)%nat -> (h mod 2 = 0)%nat -> (v mod 2 = 0)%nat -> _ := fun H1 H2 E1 E2 => proj2 (proj2 (A2_ok g h v H1 H2 E1 E2)).
Notation lm g := (lmN (A2 g)).
Notation ls g := (lsN (S2 g)).
Let two2 s : List.length s = 2%nat -> twod s := fun H => H.
Lemma non_lm g s : twod s -> Forall (fun n => (L <= n)%nat) s -> Forall (fun n => (n mod 2 = 0)%nat) s -> level_mats_a LA false g w method s = Ok (lm g s).
Proof.
  intros H2 F1 F2. destruct s as [|h [|v [|? ?]]]; try discriminate. apply Forall2_inv in F1 as [H1 H1']. apply Forall2_inv in F2 as [E1 E1']. unfold level_mats_a.
  rewrite (proj1 (A2_ok g h v H1 H1' E1 E1')). reflexivity.
Qed.
Lemma non_ls g s : twod s -> Forall (fun n => (L <= n)%nat) s -> Forall (fun n => (n mod 2 = 0)%nat) s -> level_mats_s LA false g w method s = Ok (ls g s).
Proof.
  intros H2 F1 F2. destruct s as [|h [|v [|? ?]]]; try discriminate. apply Forall2_inv in F1 as [H1 H1']. apply Forall2_inv in F2 as [E1 E1']. unfold level_mats_s.
  rewrite (proj1 (proj2 (A2_ok g h v H1 H1' E1 E1'))). reflexivity.
Qed.
Lemma pre_twod axes x : wf x -> List.length axes = 2%nat -> forall t ds, preprocess_tensor x 2 (AxSeq axes) false = Ok (t, ds) -> twod (tl (shp t)).
Proof.
  intros Hw Hl t ds H. destruct (preprocess_tensor_inv x 2 (AxSeq axes) false _ H) as (Hdt & _ & axs & Hh & _ & Hax). assert (axs = axes) as -> by (cbn in Hh; destruct (Nat.eqb _ _); congruence).
  rewrite (preprocess_tensor_ok x 2 (AxSeq axes) axes false Hw Hdt) in H; try lia; try assumption; try (cbn; rewrite Hl; reflexivity).
  injection H as <- _. cbn [pre_t shp tl]. unfold twod. rewrite gather_length, map_length. exact Hl.
Qed.
(** at least one level and a non-empty batch *)
Definition okn (b J : nat) : Prop := (0 < J)%nat /\ (0 < b)%nat.

Section Mode.
Variable m : mode.
Notation odd := (Some (mode_name m)).
Notation fresh level axes := (mkMWN w level axes method odd false None [] [] false []).
Notation Mg g := (Mi (A2 g)).
Lemma last_size J : forall h v rest, (0 < J)%nat -> exists s0, nth (J - 1) (bsizesN J [h; v] ++ rest) [] = map even_up s0 /\ map half_up s0 = restN J [h; v].
Proof.
  induction J as [|J IH]; intros h v rest HJ; [lia|]. rewrite restN_S. cbn [bsizesN app]. replace (S J - 1)%nat with J by lia. destruct J as [|J].
  - exists [h; v]. split; reflexivity.
  - cbn [nth]. destruct (IH (half_up h) (half_up v) rest ltac:(lia)) as (s0 & E1 & E2). exists s0. replace (S J - 1)%nat with J in E1 by lia. split; [exact E1|exact E2].
Qed.
Lemma shp_iter g J : forall t b s, shp t = b :: s -> shp (Nat.iter J (bandc (Mg g) m bLL) t) = b :: restN J s.
Proof.
  induction J as [|J IH]; intros t b s Hs; [exact Hs|]. rewrite restN_S, iter_r. apply IH. apply (shp_bandc (Mg g) m bLL t b s Hs).
Qed.
Lemma non_run g (o : mwavedecn K) J t b h v rest : wn_wav o = w -> wn_odd o = odd -> wn_sep o = false ->
  wn_mats o = bmatsN (lm g) J [h; v] -> wn_pads o = bpadsN J [h; v] -> wn_sizes o = bsizesN J [h; v] ++ rest ->
  wf t -> shp t = [b; h; v] -> ttag t = g -> fitsN L J [h; v] -> okn b J ->
  run2 o t = Ok (Nat.iter J (bandc (Mg g) m bLL) t, map (fun j => detsK (Mg g) m ksN (Nat.iter j (bandc (Mg g) m bLL) t)) (rev (seq 0 J))).
Proof.
  intros E1 E2 E3 E4 E5 E6 Hw Hs Hg Hf [HJ Hb]. unfold run2. rewrite E3, E1, E2, E4, E5, E6, Hs. cbn [nth].
  rewrite (to_cols_ok t b h v Hw Hs Hb). cbn [rbind].
  rewrite (mw2n_loop_ok w m L g (A2 g) (S2 g) HL (HA g) odd (translate_mode m) J t b h v rest [] Hw Hs Hg Hb Hf). cbn [rbind fst snd].
  rewrite bmats_len. destruct (bmatsN (lm g) J [h; v]) as [|m0 ms] eqn:Em; [apply (f_equal (@List.length _)) in Em; rewrite bmats_len in Em; cbn in Em; lia|].
  destruct (last_size J h v rest HJ) as (s0 & F1 & F2). rewrite F1. assert (Hl0 : List.length s0 = 2%nat).
  { apply (f_equal (@List.length _)) in F2. rewrite map_length in F2. rewrite F2. unfold restN. clear. induction J; [reflexivity|]. cbn [Nat.iter nat_rect]. rewrite map_length. exact IHJ. }
  destruct s0 as [|h0 [|v0 [|? ?]]]; try discriminate. cbn [map nth] in F2 |- *.
  rewrite (of_cols_cols _ b (even_up h0 / 2) (even_up v0 / 2)); [|destruct J; [lia|apply wf_core]|rewrite (shp_iter g J t b _ Hs), <- F2; reflexivity]. cbn [rbind]. rewrite app_nil_r. reflexivity.
Qed.
Lemma non_rec g J t b h v : wf t -> shp t = [b; h; v] -> ttag t = g -> fitsN L J [h; v] -> ((0 < J)%nat -> (0 < b)%nat) ->
  mr2_loop false (rev (bmatsN (ls g) J [h; v])) (Nat.iter J (bandc (Mg g) m bLL) t)
    (map (fun j => detsK (Mg g) m ksN (Nat.iter j (bandc (Mg g) m bLL) t)) (rev (seq 0 J))) = Ok (if Nat.eqb J 0 then t else E m t).
Proof.
  intros Hw Hs Hg Hf Hb. pose proof (mr2n_loop_ok m L g (A2 g) (S2 g) HL (HA g) J t b h v [] [] Hw Hs Hg Hb Hf) as H. rewrite !app_nil_r in H.
  change (detsN m (A2 g)) with (detsK (Mg g) m ksN) in H. rewrite H. destruct J; reflexivity.
Qed.
(** a fresh object is called: the outcome *)
Lemma non_call level axes x lev : wf x -> is_dtype_supported (tdtype x) = true -> List.length axes = 2%nat -> axes_ok (rank x) axes ->
  let nax := map (norm_axis (rank x)) axes in let s := gather nax 0%nat (shp x) in
  wn_lev w level s = Ok lev -> let J := bwn_levels (Z.to_nat lev) L s in okn (prodl (fsz nax (shp x))) J ->
  exists o', mw2_call LA (fresh level axes) x = (o', Ok (bwn2_coeffs (Mg (ttag x)) m nax ksN J x)).
Proof.
  intros Hw Hdt Hl Hax nax s Hlev J Hb.
  destruct (mw2_call_ok LA w method L (ttag x) false (lm (ttag x)) twod twod_map two2 (non_lm (ttag x)) Hdl HL (Mg (ttag x)) m ksN okn eq_refl odd (non_run (ttag x))
    (fresh level axes) x axes lev) as (o' & E & _); auto; [repeat split|left; reflexivity|eauto].
Qed.
Lemma non_fail level axes x lev : wf x -> is_dtype_supported (tdtype x) = true -> List.length axes = 2%nat -> axes_ok (rank x) axes ->
  let nax := map (norm_axis (rank x)) axes in let s := gather nax 0%nat (shp x) in
  wn_lev w level s = Ok lev -> bwn_levels (Z.to_nat lev) L s = 0%nat \/ prodl (fsz nax (shp x)) = 0%nat ->
  exists o' e, mw2_call LA (fresh level axes) x = (o', Raise e).
Proof.
  intros Hw Hdt Hl Hax nax s Hlev HJ. set (o := fresh level axes).
  assert (Hls2 : twod s) by (unfold twod, s, nax; rewrite gather_length, map_length; exact Hl).
  unfold mw2_call. change (wn_axes o) with axes. rewrite (preprocess_tensor_ok x 2 (AxSeq axes) axes false Hw Hdt); auto; [|cbn; rewrite Hl; reflexivity]. fold nax. cbn match.
  change (tl (shp (pre_t nax x))) with s. change (ttag (pre_t nax x)) with (ttag x).
  rewrite (prepare_n_eq LA w method L (ttag x) false twod twod_map (lm (ttag x)) (non_lm (ttag x)) Hdl o odd axes s lev); [|repeat split|exact Hls2|left; reflexivity|exact Hlev]. cbn match.
  change (wn_sep (readyN w method L false (lm (ttag x)) odd axes lev s)) with false. cbv iota.
  change (wn_mats (readyN w method L false (lm (ttag x)) odd axes lev s)) with (bmatsN (lm (ttag x)) (bwn_levels (Z.to_nat lev) L s) s).
  destruct HJ as [HJ|Hb].
  - rewrite HJ. cbn [bmatsN]. destruct (to_cols (pre_t nax x)) as [vv|e]; cbn [rbind]; [|do 2 eexists; reflexivity]. destruct (mw2n_loop _ _ _ _ _ _ _ _) as [r|e]; cbn [rbind]; do 2 eexists; reflexivity.
  - unfold to_cols. change (nth 0 (shp (pre_t nax x)) 0%nat) with (prodl (fsz nax (shp x))). rewrite Hb. unfold reshape_last. cbn [prodl fold_right Nat.mul Nat.eqb rbind]. do 2 eexists; reflexivity.
Qed.
Lemma non_outcome level axes x o' c : wf x -> List.length axes = 2%nat -> mw2_call LA (fresh level axes) x = (o', Ok c) ->
  let nax := map (norm_axis (rank x)) axes in let s := gather nax 0%nat (shp x) in
  is_dtype_supported (tdtype x) = true /\ axes_ok (rank x) axes /\ exists lev, wn_lev w level s = Ok lev /\ okn (prodl (fsz nax (shp x))) (bwn_levels (Z.to_nat lev) L s) /\
  c = bwn2_coeffs (Mg (ttag x)) m nax ksN (bwn_levels (Z.to_nat lev) L s) x.
Proof.
  intros Hw Hl Hc nax s. destruct (mw2_call_inv LA (fresh level axes) o' axes x c Hw eq_refl Hl Hc) as (Hdt & Hax & lev & Hlev). cbn [wn_wav wn_level] in Hlev.
  split; [exact Hdt|]. split; [exact Hax|]. exists lev. split; [exact Hlev|].
  assert (Hb : okn (prodl (fsz nax (shp x))) (bwn_levels (Z.to_nat lev) L s)).
  { unfold okn. destruct (Nat.eq_dec (bwn_levels (Z.to_nat lev) L s) 0) as [E0|E0]; [|destruct (Nat.eq_dec (prodl (fsz nax (shp x))) 0) as [E1|E1]; [|lia]];
      (destruct (non_fail level axes x lev Hw Hdt Hl Hax Hlev) as (o2 & e & E); [fold nax s; auto|congruence]). }
  split; [exact Hb|]. destruct (non_call level axes x lev Hw Hdt Hl Hax Hlev Hb) as [o2 E]. fold nax s in E. rewrite E in Hc. apply (f_equal snd) in Hc. cbn [snd] in Hc. apply ok_injM in Hc. auto.
Qed.
(** C43, separable=False: the coefficients.  The first member of a detail tuple is the one with details along the first
    axis - the other way round than with separable=True. *)
Theorem C43_nonseparable_coefficients level axes o x o' c : wf x -> new_mwavedecn 2 w level (AxSeq axes) method odd false = Ok o -> mw2_call LA o x = (o', Ok c) ->
  let nax := map (norm_axis (rank x)) axes in let s := gather nax 0%nat (shp x) in
  exists lev A, match level with Some l => lev = l /\ (0 < l)%Z | None => default_depth L s (Z.to_nat lev) end /\
    (forall h v, (L <= h)%nat -> (L <= v)%nat -> (h mod 2 = 0)%nat -> (v mod 2 = 0)%nat -> construct_boundary_a2 LA (ttag x) w h v method = Ok (A h v) /\ orthogonal (v * h) (mget (A h v))) /\
    c = bwn2_coeffs (image_matrix (fun h v => mget (A h v))) m nax [bHL; bLH; bHH] (bwn_levels (Z.to_nat lev) L s) x.
Proof.
  intros Hw Ho Hc nax s. apply new_mwn_inv in Ho as [Hl ->]. destruct (non_outcome level axes x o' c Hw Hl Hc) as (Hdt & Hax & lev & Hlev & Hb & ->). fold nax s in Hlev.
  exists lev, (A2 (ttag x)). split.
  - unfold wn_lev in Hlev. destruct level as [l|]; [destruct (Z.leb_spec l 0); [discriminate|]; injection Hlev as <-; auto|]. apply mat_level_n_depth; [exact HL|]. rewrite <- Hdl. exact Hlev.
  - split; [|reflexivity]. intros h v H1 H2 E1 E2. destruct (A2_ok (ttag x) h v H1 H2 E1 E2) as (P1 & _ & _ & _ & _ & P2 & _). auto.
Qed.
(** which inputs a fresh object accepts: there must be a level to compute and no empty untouched axis *)
Theorem C43_nonseparable_accepts level axes x : wf x -> List.length axes = 2%nat ->
  let nax := map (norm_axis (rank x)) axes in let s := gather nax 0%nat (shp x) in
  (exists o o' c, new_mwavedecn 2 w level (AxSeq axes) method odd false = Ok o /\ mw2_call LA o x = (o', Ok c)) <->
  (is_dtype_supported (tdtype x) = true /\ axes_ok (rank x) axes /\
   exists lev, match level with Some l => lev = l /\ (0 < l)%Z | None => default_depth L s (Z.to_nat lev) end /\ (0 < bwn_levels (Z.to_nat lev) L s)%nat /\ batch_nonempty nax x).
Proof.
  intros Hw Hl nax s. split.
  - intros (o & o' & c & Ho & Hc). apply new_mwn_inv in Ho as [_ ->]. destruct (non_outcome level axes x o' c Hw Hl Hc) as (Hdt & Hax & lev & Hlev & [Hb1 Hb2] & _). fold nax s in Hlev, Hb1.
    split; [exact Hdt|]. split; [exact Hax|]. exists lev. split; [|split; [exact Hb1|apply fsz_pos; exact Hb2]].
    unfold wn_lev in Hlev. destruct level as [l|]; [destruct (Z.leb_spec l 0); [discriminate|]; injection Hlev as <-; auto|]. apply mat_level_n_depth; [exact HL|]. rewrite <- Hdl. exact Hlev.
  - intros (Hdt & Hax & lev & Hlev & HJ & Hb). exists (fresh level axes).
    assert (Hlev' : exists lev', wn_lev w level s = Ok lev' /\ Z.to_nat lev' = Z.to_nat lev).
    { unfold wn_lev. destruct level as [l|]; [destruct Hlev as [-> Hp]; destruct (Z.leb_spec l 0); [lia|eauto]|].
      destruct (mat_level_n_ex (get_len w) s) as [lev' E]; [|apply Hlev|].
      { intros E0. apply (f_equal (@List.length nat)) in E0. unfold s, nax in E0. rewrite gather_length, map_length, Hl in E0. discriminate. }
      exists lev'. split; [exact E|]. apply (default_depth_unique L s); [|exact Hlev]. apply mat_level_n_depth; [exact HL|]. rewrite <- Hdl. exact E. }
    destruct Hlev' as (lev' & Hlev' & E2).
    destruct (non_call level axes x lev' Hw Hdt Hl Hax Hlev') as [o2 E]; [fold nax s; rewrite E2; split; [exact HJ|apply fsz_pos, Hb]|].
    exists o2. eexists. split; [|exact E]. pose proof (la_ok_sup LA method HLA) as Hsup.
    unfold new_mwavedecn, ensure_axes. rewrite Hl. cbn [Nat.eqb]. rewrite (axes_ok_check _ _ Hax). cbn [rbind]. rewrite Hsup. cbn [negb]. rewrite Hrl, Hdl, Nat.eqb_refl. reflexivity.
Qed.
(** C43, separable=False: MatrixWaverec2(MatrixWavedec2(x)) is x, extended by one sample along the axes with an odd size *)
Theorem C43_nonseparable_reconstruction level axes o x o' c r : wf x -> new_mwavedecn 2 w level (AxSeq axes) method odd false = Ok o -> mw2_call LA o x = (o', Ok c) ->
  new_mwaverecn 2 w (AxSeq axes) method false = Ok r ->
  snd (mr2_call LA r (pc_items c)) = Ok (ext_even m (map (norm_axis (rank x)) axes) x).
Proof.
  intros Hw Ho Hc Hr. set (nax := map (norm_axis (rank x)) axes). apply new_mwn_inv in Ho as [Hl ->]. apply new_mrn_inv in Hr as [_ ->].
  destruct (non_outcome level axes x o' c Hw Hl Hc) as (Hdt & Hax & lev & Hlev & [Hb1 Hb2] & ->). fold nax in Hlev, Hb1, Hb2 |- *. set (s := gather nax 0%nat (shp x)) in *. set (J := bwn_levels (Z.to_nat lev) L s) in *.
  destruct (mr2_call_ok LA w method L (ttag x) false (lm (ttag x)) (ls (ttag x)) twod twod_map two2 (non_lm (ttag x)) (non_ls (ttag x)) Hdl Hrl HL (Mg (ttag x)) m ksN okn eq_refl odd (non_run (ttag x)) (non_rec (ttag x)) (mkMRN w axes method false [] None None false) x axes J) as (r' & E2 & _); auto.
  - repeat split.
  - apply fits_levels_n.
  - left. reflexivity.
  - fold nax in E2. rewrite E2. cbn [snd]. destruct (Nat.eqb_spec J 0); [lia|reflexivity].
Qed.
Theorem C43_nonseparable_perfect_reconstruction level axes o x o' c r : wf x -> new_mwavedecn 2 w level (AxSeq axes) method odd false = Ok o -> mw2_call LA o x = (o', Ok c) ->
  new_mwaverecn 2 w (AxSeq axes) method false = Ok r ->
  let nax := map (norm_axis (rank x)) axes in
  exists y, snd (mr2_call LA r (pc_items c)) = Ok y /\ agrees_on x y /\
    forall d, nth d (shp y) 0%nat = nth d (shp x) 0%nat \/ (In d nax /\ Nat.odd (nth d (shp x) 0%nat) = true /\ nth d (shp y) 0%nat = S (nth d (shp x) 0%nat)).
Proof.
  intros Hw Ho Hc Hr nax. eexists. split; [apply (C43_nonseparable_reconstruction level axes o x o' c r); assumption|]. fold nax. change (rec_of x (ext_even m nax x) nax).
  apply new_mwn_inv in Ho as [Hl ->]. destruct (mw2_call_inv LA (fresh level axes) o' axes x c Hw eq_refl Hl Hc) as (_ & Hax & _).
  apply rec_of_ext; [exact Hw|apply good_axes_ok, Hax].
Qed.
End Mode.

(** C42, separable=False *)
Theorem C42_nonseparable_wavedec2 g l axes odd o xs : new_mwavedecn 2 w (Some l) (AxSeq axes) method odd false = Ok o -> Forall (fun x => ttag x = g /\ wf x) xs ->
  mwn_run (mw2_call LA) o xs = map (fun x => snd (mw2_call LA o x)) xs.
Proof.
  intros Ho Hxs. apply new_mwn_inv in Ho as [Hl ->].
  assert (G : forall o, wn_good w method L false twod (lm g) o odd axes l -> mwn_run (mw2_call LA) o xs = map (fun x => snd (mw2_call LA (mkMWN w (Some l) axes method odd false None [] [] false []) x)) xs).
  { induction Hxs as [|x xs [Hg Hw] _ IH]; intros o Ho; [reflexivity|]. cbn [mwn_run map]. cbv zeta.
    destruct (mw2_same LA w method L g false twod twod_map (lm g) (ls g) (non_lm g) (non_ls g) Hdl Hrl o odd axes l x (pre_twod axes x Hw Hl) Hg Ho) as [H1 H2]. rewrite H1. f_equal. apply IH, H2. }
  apply G. split; [repeat split|]. split; [reflexivity|]. left. reflexivity.
Qed.
Theorem C42_nonseparable_waverec2 g axes r css : new_mwaverecn 2 w (AxSeq axes) method false = Ok r ->
  Forall (fun cs => forall t, In t (pc_tensors (mkPC false cs)) -> ttag t = g) css ->
  mrn_run (mr2_call LA) r css = map (fun cs => snd (mr2_call LA r cs)) css.
Proof.
  intros Hr Hcs. apply new_mrn_inv in Hr as [Hl ->].
  assert (G : forall r, rn_good w method L false twod (ls g) r axes -> mrn_run (mr2_call LA) r css = map (fun cs => snd (mr2_call LA (mkMRN w axes method false [] None None false) cs)) css).
  { induction Hcs as [|cs css Hg _ IH]; intros r Hr; [reflexivity|]. cbn [mrn_run map]. cbv zeta.
    destruct (mr2_same LA w method L g false twod twod_map (ls g) (non_ls g) Hrl r axes cs Hg (fun hs H => twod_map _ _ H) Hr) as [H1 H2]. rewrite H1. f_equal. apply IH, H2. }
  apply G. split; [repeat split|]. left. reflexivity.
Qed.
Theorem C42_nonseparable_wavedec2_default g m axes o x o' c xs : new_mwavedecn 2 w None (AxSeq axes) method (Some (mode_name m)) false = Ok o ->
  wf x -> ttag x = g -> Forall (fun x => ttag x = g /\ wf x) xs -> mw2_call LA o x = (o', Ok c) ->
  exists lev ol, default_depth L (gather (map (norm_axis (rank x)) axes) 0%nat (shp x)) (Z.to_nat lev) /\ (0 < lev)%Z /\
    new_mwavedecn 2 w (Some lev) (AxSeq axes) method (Some (mode_name m)) false = Ok ol /\
    mwn_run (mw2_call LA) o (x :: xs) = map (fun x => snd (mw2_call LA ol x)) (x :: xs).
Proof.
  intros Ho Hw Hg Hxs Hc. pose proof Ho as Ho'. apply new_mwn_inv in Ho' as [Hl Eo]. subst o. destruct (non_outcome m None axes x o' c Hw Hl Hc) as (Hdt & Hax & lev & Hlev & [HJ _] & Hcc). cbn [wn_lev] in Hlev.
  assert (Hpos : (0 < lev)%Z).
  { destruct (Z.ltb_spec 0 lev) as [|Hn]; [assumption|]. replace (Z.to_nat lev) with 0%nat in HJ by lia. cbn in HJ. lia. }
  assert (Hol : new_mwavedecn 2 w (Some lev) (AxSeq axes) method (Some (mode_name m)) false = Ok (mkMWN w (Some lev) axes method (Some (mode_name m)) false None [] [] false [])).
  { pose proof Ho as Ho'. unfold new_mwavedecn in Ho' |- *. apply rbind_ok in Ho' as (axs & Ha & Ho'). rewrite Ha. cbn [rbind]. destruct (negb (orth_supported method)); [discriminate|]. destruct (negb _); [discriminate|].
    injection Ho' as ->. reflexivity. }
  exists lev, (mkMWN w (Some lev) axes method (Some (mode_name m)) false None [] [] false []). split; [apply mat_level_n_depth; [exact HL|rewrite <- Hdl; exact Hlev]|]. split; [exact Hpos|]. split; [exact Hol|].
  rewrite <- (C42_nonseparable_wavedec2 g lev axes (Some (mode_name m)) _ (x :: xs) Hol) by (constructor; auto).
  cbn [mwn_run]. cbv zeta.
  assert (Hpre : preprocess_tensor x 2 (AxSeq axes) false = Ok (pre_t (map (norm_axis (rank x)) axes) x, fsz (map (norm_axis (rank x)) axes) (shp x) ++ gather (map (norm_axis (rank x)) axes) 0%nat (shp x))).
  { apply (preprocess_tensor_ok x 2 (AxSeq axes) axes false Hw Hdt); try lia; try assumption; try (cbn; rewrite Hl); reflexivity. }
  edestruct (mwn_default LA w method L g false twod twod_map (lm g) (ls g) (non_lm g) (non_ls g) Hdl Hrl 2) as [H1 H2];
    [intros t ds Ht; split; [exact (pre_twod axes x Hw Hl t ds Ht)|rewrite Hpre in Ht; injection Ht as <- <-; exact Hlev]|exact Hg|exact Hpos|].
  specialize (H2 ltac:(eexists; eexists; exact Hpre)).
  refine (f_equal2 cons H1 (f_equal (fun q => mwn_run (mw2_call LA) q xs) H2)).
Qed.
End Bank.
End PNN.
