(** C59, C60, C61: linearity, rejection of inconsistent coefficients and independence of the signals of a batch for
    every padded transform, in any dimension. *)
From Coq Require Import List Arith ZArith Lia Bool String.
From Verif Require Import Base Sums Tensor TensorFacts Util Perm Plumb Accept Spec Conv1 PadFacts CoreFacts Analysis AnalysisInv PRKernel Synthesis Filters Wave1 Wave1Inv Rec1 Rec1Inv Lin Examples Props1 Conv2 Conv3 Spec2 WaveN RecN Props2 Sep SpecSep SepFacts SepRec SepRec2 SepRec3 PropsSep Unified RecNInv UnifiedRec.
Import ListNotations.

Section Nd.
Context {K : CRing}.
Add Ring Kring : (cr_th K).
Implicit Types x y t lo : tensor K.
Implicit Types w : wavelet K.

(** ** coefficient containers as vectors: a*c + b*c' entry by entry *)
Definition pv_lin (a b : K) (v v' : pyval K) : pyval K :=
  match v, v' with
  | PT t, PT t' => PT (tlin a b t t')
  | PTup l, PTup l' => PTup (map2 (tlin a b) l l')
  | PDict d, PDict d' => PDict (map2 (fun kv kv' => (fst kv, tlin a b (snd kv) (snd kv'))) d d')
  | _, _ => v
  end.
Definition pc_lin (a b : K) (c c' : pycoeffs K) : pycoeffs K := mkPC (pc_is_list c) (map2 (pv_lin a b) (pc_items c) (pc_items c')).

Lemma map2_maps {A B C D} (f : B -> C -> D) (g : A -> B) (h : A -> C) l : map2 f (map g l) (map h l) = map (fun q : A => f (g q) (h q)) l.
Proof. induction l as [|p l IH]; [reflexivity|]. cbn. rewrite IH. reflexivity. Qed.

Lemma detail_lin1 (lo : list K) fs m nax j x y a b : wf x -> wf y -> shp y = shp x ->
  detail lo fs m nax j (tlin a b x y) = tlin a b (detail lo fs m nax j x) (detail lo fs m nax j y).
Proof. intros. apply detail_lin; assumption. Qed.
Lemma approx_lin1 (lo : list K) m nax j x y a b : wf x -> wf y -> shp y = shp x ->
  approx lo m nax j (tlin a b x y) = tlin a b (approx lo m nax j x) (approx lo m nax j y).
Proof. intros. apply approx_lin; assumption. Qed.
Lemma tdetails_lin T (lo hi : list K) m nax j x y a b : wf x -> wf y -> shp y = shp x ->
  tdetails T lo hi m nax j (tlin a b x y) = pv_lin a b (tdetails T lo hi m nax j x) (tdetails T lo hi m nax j y).
Proof.
  intros Hx Hy Hs. destruct T; cbn [tdetails pv_lin].
  - rewrite detail_lin1 by assumption. reflexivity.
  - unfold details2. cbn [pv_lin map2]. rewrite !detail_lin1 by assumption. reflexivity.
  - unfold details3. cbn [pv_lin]. rewrite map2_maps. f_equal. apply map_ext. intros k. cbn [fst snd]. rewrite detail_lin1 by assumption. reflexivity.
  - unfold detailsN. rewrite map2_maps. f_equal. apply map_ext. intros k. cbn [fst snd]. rewrite detail_lin1 by assumption. reflexivity.
  - unfold detailsN. rewrite map2_maps. f_equal. apply map_ext. intros k. cbn [fst snd]. rewrite detail_lin1 by assumption. reflexivity.
Qed.
Lemma tspec_lin T (lo hi : list K) m nax J x y a b : wf x -> wf y -> shp y = shp x ->
  tspec T lo hi m nax J (tlin a b x y) = pc_lin a b (tspec T lo hi m nax J x) (tspec T lo hi m nax J y).
Proof.
  intros Hx Hy Hs. unfold tspec, pc_lin. cbn [pc_is_list pc_items map2 pv_lin]. rewrite map2_maps, approx_lin1 by assumption. f_equal. f_equal.
  apply map_ext. intros j. apply tdetails_lin; assumption.
Qed.

(** ** C59 *)
Theorem C59_analysis_linear T x y w m L level cx cy a b : wf x -> wf y -> shp y = shp x ->
  List.length (dec_lo w) = L -> List.length (dec_hi w) = L -> (2 <= L)%nat -> Nat.even L = true ->
  (is3 T = true -> (2 <= List.length (pc_items cx))%nat) -> (isfs T = true -> level = None -> ~ In 0%nat (shp x)) ->
  analyse T x w (Some (mode_name m)) level = Ok cx ->
  analyse T y w (Some (mode_name m)) level = Ok cy ->
  analyse T (tlin a b x y) w (Some (mode_name m)) level = Ok (pc_lin a b cx cy).
Proof.
  intros Hx Hy Hs H1 H2 HL He H3 Hfs Ex Ey.
  edestruct (analyse_inv T x w m L level) with (8 := Ex) as (Hd & axes & Hh & Hla & Hax & HJ); try eassumption.
  { intros E. left. auto. }
  cbv zeta in HJ. destruct HJ as (HJ3 & HJfs & Hlev & ->).
  assert (Hr : rank y = rank x) by (unfold rank; rewrite Hs; reflexivity).
  (* the second call has the same number of levels *)
  assert (Ey' : analyse T y w (Some (mode_name m)) level = Ok (tspec T (dec_lo w) (dec_hi w) m (map (norm_axis (rank x)) axes) (num_levels level L (gather (map (norm_axis (rank x)) axes) 0%nat (shp x))) y)).
  { pose proof (analyse_ok T y w m L level axes Hy) as A. cbv zeta in A. rewrite Hr, Hs in A. apply A; auto.
    clear A. destruct T as [a0|h|h|h|h]; cbn [analyse] in Ey.
    - destruct (wavedec_inv y w m L level a0 cy Hy H1 H2 HL He Ey) as (Hd' & _). exact Hd'.
    - destruct (wavedec2_result y w m L level h cy Hy H1 H2 HL He Ey) as (Hd' & _). exact Hd'.
    - destruct (wavedec3_result y w m L level h cy Hy H1 H2 HL He Ey) as (Hd' & _). exact Hd'.
    - destruct (fswavedecn_result y w 2 m L level h cy ltac:(lia) Hy H1 H2 HL He ltac:(rewrite Hs; apply Hfs; reflexivity) Ey) as (Hd' & _). exact Hd'.
    - destruct (fswavedecn_result y w 3 m L level h cy ltac:(lia) Hy H1 H2 HL He ltac:(rewrite Hs; apply Hfs; reflexivity) Ey) as (Hd' & _). exact Hd'. }
  rewrite Ey in Ey'. apply ok_inj in Ey'. subst cy. rewrite <- tspec_lin by assumption.
  pose proof (analyse_ok T (tlin a b x y) w m L level axes (wf_tlin a b x y Hx Hy Hs)) as A. cbv zeta in A.
  change (rank (tlin a b x y)) with (rank x) in A. change (shp (tlin a b x y)) with (shp x) in A. change (tdtype (tlin a b x y)) with (tdtype x) in A.
  apply A; auto.
Qed.

(** ** C61: the coefficients of one signal of a batch *)
Definition tdefault (T : transform) : transform :=
  match T with Twavedec _ => Twavedec (-1) | Twavedec2 _ => Twavedec2 AxNone | Twavedec3 _ => Twavedec3 AxNone
  | Tfswavedec2 _ => Tfswavedec2 AxNone | Tfswavedec3 _ => Tfswavedec3 AxNone end.

Lemma fibre_detail (lo : list K) fs m L nax idx j x J : good_axes (rank x) nax -> fib_ok nax idx (shp x) -> (2 <= L)%nat ->
  List.length lo = L -> List.length fs = List.length nax -> Forall (fun f => List.length f = L) fs -> levels_axes m L J nax (shp x) -> (1 <= j <= J)%nat ->
  fibre nax idx (detail lo fs m nax j x) = detail lo fs m (seq 0 (List.length nax)) j (fibre nax idx x).
Proof.
  intros Hg Hf HL H1 Hl Hfs Hlev Hj. unfold detail.
  destruct (fibre_approx lo m L nax idx (j - 1) x J Hg Hf HL H1 Hlev ltac:(lia)) as [E1 E2].
  rewrite <- E1. apply (fibre_dwt fs m L nax idx); auto.
  - rewrite approx_rank. exact Hg.
  - apply (levels_axes_adm lo m L J); auto. lia.
Qed.
Lemma key_filters_facts (lo hi : list K) L k : List.length lo = L -> List.length hi = L ->
  List.length (key_filters lo hi k) = String.length k /\ Forall (fun f => List.length f = L) (key_filters lo hi k).
Proof.
  intros H1 H2. unfold key_filters. induction k as [|c k [IH1 IH2]]; [split; [reflexivity|constructor]|]. cbn [list_ascii_of_string map List.length String.length].
  rewrite map_length in *. split; [f_equal; exact IH1|]. constructor; [destruct (Ascii.eqb c _); assumption|exact IH2].
Qed.
Lemma fibre_tspec T (lo hi : list K) m L nax idx J x : List.length nax = tdim T -> good_axes (rank x) nax -> fib_ok nax idx (shp x) -> (2 <= L)%nat ->
  List.length lo = L -> List.length hi = L -> levels_axes m L J nax (shp x) ->
  pc_map (fibre nax idx) (tspec T lo hi m nax J x) = tspec (tdefault T) lo hi m (seq 0 (List.length nax)) J (fibre nax idx x).
Proof.
  intros Hn Hg Hf HL H1 H2 Hlev. unfold tspec, pc_map. cbn [pc_is_list pc_items map pv_map].
  destruct (fibre_approx lo m L nax idx J x J Hg Hf HL H1 Hlev ltac:(lia)) as [-> _].
  assert (E : map (pv_map (fibre nax idx)) (map (fun j => tdetails T lo hi m nax j x) (rev (seq 1 J)))
     = map (fun j => tdetails (tdefault T) lo hi m (seq 0 (List.length nax)) j (fibre nax idx x)) (rev (seq 1 J))).
  { rewrite map_map. apply map_ext_in. intros j Hj. apply in_rev in Hj. apply in_seq in Hj.
    assert (G : forall fs, List.length fs = List.length nax -> Forall (fun f => List.length f = L) fs ->
       fibre nax idx (detail lo fs m nax j x) = detail lo fs m (seq 0 (List.length nax)) j (fibre nax idx x)).
    { intros fs Hl Hfs. apply (fibre_detail lo fs m L nax idx j x J); auto. lia. }
    assert (GD : forall ks : list string, Forall (fun k => String.length k = List.length nax) ks ->
       map (fun kv => (fst kv, fibre nax idx (snd kv))) (map (fun k => (k, detail lo (key_filters lo hi k) m nax j x)) ks)
       = map (fun k => (k, detail lo (key_filters lo hi k) m (seq 0 (List.length nax)) j (fibre nax idx x))) ks).
    { intros ks Hks. rewrite map_map. apply map_ext_in. intros k Hk. rewrite Forall_forall in Hks. cbn [fst snd].
      destruct (key_filters_facts lo hi L k H1 H2) as [A B]. rewrite G; [reflexivity|rewrite A; apply Hks; exact Hk|exact B]. }
    destruct T; cbn [tdetails tdefault pv_map tdim] in *.
    - rewrite G; [reflexivity|cbn; congruence|repeat constructor; assumption].
    - unfold details2. cbn [pv_map map]. rewrite !G; try (cbn; congruence); try (repeat constructor; assumption).
    - unfold details3. cbn [pv_map]. rewrite GD; [reflexivity|]. rewrite Hn. repeat constructor.
    - unfold detailsN. rewrite GD; [|rewrite Hn; repeat constructor]. rewrite seq_length. reflexivity.
    - unfold detailsN. rewrite GD; [|rewrite Hn; repeat constructor]. rewrite seq_length. reflexivity. }
  rewrite E. destruct T; reflexivity.
Qed.

Theorem C61_analysis_fibrewise T x w m L level c : wf x ->
  List.length (dec_lo w) = L -> List.length (dec_hi w) = L -> (2 <= L)%nat -> Nat.even L = true ->
  (is3 T = true -> (2 <= List.length (pc_items c))%nat) -> (isfs T = true -> level = None -> ~ In 0%nat (shp x)) ->
  analyse T x w (Some (mode_name m)) level = Ok c ->
  exists axes, hint_axes (thint T) (tdim T) = Some axes /\
  let nax := map (norm_axis (rank x)) axes in
  forall idx, fib_ok nax idx (shp x) ->
    analyse (tdefault T) (fibre nax idx x) w (Some (mode_name m)) level = Ok (pc_map (fibre nax idx) c).
Proof.
  intros Hw H1 H2 HL He H3 Hfs H.
  edestruct (analyse_inv T x w m L level) with (8 := H) as (Hd & axes & Hh & Hla & Hax & HJ); try eassumption.
  { intros E. left. auto. }
  exists axes. split; [exact Hh|]. cbv zeta in *. intros idx Hf. set (nax := map (norm_axis (rank x)) axes) in *.
  destruct HJ as (HJ3 & HJfs & Hlev & ->). pose proof (good_axes_ok _ _ Hax) as Hg. fold nax in Hg.
  assert (Hn : List.length nax = tdim T) by (unfold nax; rewrite map_length; exact Hla).
  rewrite (fibre_tspec T _ _ m L nax idx _ x); auto.
  assert (HD : tdim (tdefault T) = tdim T) by (destruct T; reflexivity).
  set (xf := fibre nax idx x).
  assert (Hrf : rank xf = tdim T) by (unfold xf; rewrite rank_fibre; exact Hn).
  assert (Hhd : hint_axes (thint (tdefault T)) (tdim (tdefault T)) = Some (default_axes (tdim T))) by (destruct T; reflexivity).
  pose proof (analyse_ok (tdefault T) xf w m L level (default_axes (tdim T)) (wf_fibre nax idx x)) as A. cbv zeta in A.
  rewrite HD, Hrf in A. rewrite HD in Hhd.
  assert (Eax : map (norm_axis (tdim T)) (default_axes (tdim T)) = seq 0 (List.length nax)).
  { rewrite default_axes_norm by lia. rewrite Nat.sub_diag, Hn. reflexivity. }
  rewrite Eax in A.
  assert (Egs : gather (seq 0 (List.length nax)) 0%nat (shp xf) = gather nax 0%nat (shp x)).
  { change (shp xf) with (gather nax 0%nat (shp x)). apply gather_seq_all. apply gather_length. }
  rewrite Egs in A. apply A; auto.
  - unfold default_axes. rewrite map_length, seq_length. reflexivity.
  - apply default_axes_ok. lia.
  - intros E. apply HJ3. destruct T; auto.
  - intros E. apply HJfs. destruct T; auto.
Qed.

(** ** synthesis *)
Lemma slevel_lin S a b ds ds' : List.length ds = List.length ds' -> pv_lin a b (slevel S ds) (slevel S ds') = slevel S (map2 (tlin a b) ds ds').
Proof.
  intros Hl. assert (G : forall ks : list string, map2 (fun kv kv' : string * tensor K => (fst kv, tlin a b (snd kv) (snd kv'))) (combine ks ds) (combine ks ds') = combine ks (map2 (tlin a b) ds ds')).
  { intros ks. revert ds ds' Hl. induction ks as [|k ks IH]; intros [|d ds] [|d' ds'] Hl; cbn in Hl; try discriminate; try reflexivity. cbn. rewrite IH by lia. reflexivity. }
  destruct S; cbn [slevel pv_lin]; [reflexivity|rewrite G; reflexivity..].
Qed.
Lemma container_lin S a b lo lo' levels levels' : same_shapes levels levels' ->
  pc_lin a b (container S lo levels) (container S lo' levels') = container S (tlin a b lo lo') (map2 (map2 (tlin a b)) levels levels').
Proof.
  intros Hss. unfold pc_lin, container. cbn [pc_is_list pc_items map2 pv_lin]. f_equal. f_equal.
  induction Hss as [|ds ds' l l' Hd _ IH]; [reflexivity|]. cbn [map map2]. rewrite IH, slevel_lin; [reflexivity|]. apply F2_len in Hd. exact Hd.
Qed.
Lemma map2_in_l {A B} (f : A -> A -> B) l l' z : In z (map2 f l l') -> exists u v, z = f u v /\ In (u, v) (combine l l').
Proof.
  revert l'. induction l as [|p l IH]; intros [|q l'] H; cbn in H; try contradiction. destruct H as [<-|H].
  - exists p, q. split; [reflexivity|left; reflexivity].
  - destruct (IH _ H) as (u & v & E & Hin). exists u, v. split; [exact E|right; exact Hin].
Qed.
Lemma F2_combine {A B} (R : A -> B -> Prop) l l' u v : Forall2 R l l' -> In (u, v) (combine l l') -> R u v.
Proof. intros H. induction H as [|p q l l' Hpq _ IH]; cbn; [contradiction|]. intros [E|E]; [injection E as <- <-; exact Hpq|auto]. Qed.
Lemma fit_tlin C nax L a b lo lo' levels levels' : shp lo' = shp lo ->
  coeffs_fit C nax L lo levels -> coeffs_fit C nax L lo' levels' -> same_shapes levels levels' ->
  coeffs_fit C nax L (tlin a b lo lo') (map2 (map2 (tlin a b)) levels levels').
Proof.
  intros Hs [Hall Hfit] [Hall' _] Hss. split.
  - change (rank (tlin a b lo lo')) with (rank lo). change (shp (tlin a b lo lo')) with (shp lo). change (ttag (tlin a b lo lo')) with (ttag lo).
    clear Hfit. induction Hss as [|ds ds' l l' Hd _ IH]; [constructor|]. inversion Hall as [|? ? [(A1 & A2 & A3) A4] Hall1]; subst. inversion Hall' as [|? ? [(B1 & B2 & B3) B4] Hall1']; subst.
    cbn [map2]. constructor; [|apply IH; assumption]. split; [split; [|split]|].
    + rewrite map2_length. pose proof (F2_len _ _ _ Hd). lia.
    + apply Forall_forall. intros d Hd'. apply map2_in_l in Hd' as (u & v & -> & Hin). pose proof (F2_combine _ _ _ _ _ Hd Hin) as Hsh.
      pose proof (in_combine_l _ _ _ _ Hin) as Hu. pose proof (in_combine_r _ _ _ _ Hin) as Hv. rewrite Forall_forall in A2, B2.
      destruct (A2 u Hu) as (C1 & C2 & C3). destruct (B2 v Hv) as (D1 & _). split; [apply wf_tlin; assumption|]. split; [exact C2|exact C3].
    + intros d d' H1 H2. apply map2_in_l in H1 as (u & v & -> & Hin). apply map2_in_l in H2 as (u' & v' & -> & Hin').
      cbn. apply A3; eapply in_combine_l; eassumption.
    + apply Forall_forall. intros d Hd'. apply map2_in_l in Hd' as (u & v & -> & Hin). rewrite Forall_forall in A4. apply (A4 u). eapply in_combine_l; eassumption.
  - change (shp (tlin a b lo lo')) with (shp lo). replace (map (lsizes nax) (map2 (map2 (tlin a b)) levels levels')) with (map (lsizes nax) levels); [exact Hfit|].
    clear - Hss. induction Hss as [|ds ds' l l' Hd _ IH]; [reflexivity|]. cbn [map map2]. rewrite <- IH. f_equal. destruct Hd; reflexivity.
Qed.

Theorem C59_synthesis_linear S lo lo' levels levels' w L axes a b y y' :
  wf lo -> wf lo' -> shp lo' = shp lo -> ttag lo' = ttag lo -> is_dtype_supported (tdtype lo) = true ->
  hint_axes (shint S) (sdim S) = Some axes -> List.length axes = sdim S -> axes_ok (rank lo) axes ->
  List.length (rec_lo w) = L -> List.length (rec_hi w) = L -> (2 <= L)%nat ->
  let nax := map (norm_axis (rank lo)) axes in
  coeffs_fit (sdets S) nax L lo levels -> coeffs_fit (sdets S) nax L lo' levels' -> same_shapes levels levels' ->
  synthesise S (container S lo levels) w = Ok y -> synthesise S (container S lo' levels') w = Ok y' ->
  synthesise S (pc_lin a b (container S lo levels) (container S lo' levels')) w = Ok (tlin a b y y').
Proof.
  intros Hw Hw' Hs Ht Hd Hh Hl Hax H1 H2 HL nax Hf Hf' Hss Ey Ey'.
  assert (Hr : rank lo' = rank lo) by (unfold rank; rewrite Hs; reflexivity).
  rewrite (synth_ok S lo levels w L axes) in Ey by assumption. apply ok_inj in Ey.
  rewrite (synth_ok S lo' levels' w L axes) in Ey'; try assumption; [|unfold tdtype; rewrite Ht; exact Hd|rewrite Hr; exact Hax|rewrite Hr; exact Hf'].
  apply ok_inj in Ey'. rewrite Hr in Ey'. subst y y'. fold nax. rewrite container_lin by exact Hss.
  rewrite (synth_ok S (tlin a b lo lo') _ w L axes); try assumption; [|apply wf_tlin; assumption|].
  - change (rank (tlin a b lo lo')) with (rank lo). fold nax. f_equal.
    assert (HC : (1 <= sdets S)%nat) by (destruct S; cbn; lia).
    apply (recN_lin (sdets S)); auto. apply schans_len. apply good_axes_ok. exact Hax.
  - apply fit_tlin; assumption.
Qed.

(** the same function with its default axes: what a user calls on one signal of the batch *)
Definition sdefault (S : synth) : synth :=
  match S with Swaverec2 _ => Swaverec2 AxNone | Swaverec3 _ => Swaverec3 AxNone | Sfswaverec2 _ => Sfswaverec2 AxNone | Sfswaverec3 _ => Sfswaverec3 AxNone end.
Lemma container_map S nax idx lo levels : pc_map (fibre nax idx) (container S lo levels) = container (sdefault S) (fibre nax idx lo) (map (map (fibre nax idx)) levels).
Proof.
  unfold pc_map, container. cbn [pc_is_list pc_items map pv_map]. f_equal. f_equal. rewrite !map_map. apply map_ext. intros ds.
  assert (G : forall ks : list string, map (fun kv : string * tensor K => (fst kv, fibre nax idx (snd kv))) (combine ks ds) = combine ks (map (fibre nax idx) ds)).
  { intros ks. revert ds. induction ks as [|k ks IH]; intros [|d ds]; try reflexivity. cbn. rewrite IH. reflexivity. }
  destruct S; cbn [slevel pv_map sdefault skeys]; [reflexivity|rewrite G; reflexivity..].
Qed.

Theorem C61_synthesis_fibrewise S lo levels w L axes y :
  wf lo -> is_dtype_supported (tdtype lo) = true ->
  hint_axes (shint S) (sdim S) = Some axes -> List.length axes = sdim S -> axes_ok (rank lo) axes ->
  List.length (rec_lo w) = L -> List.length (rec_hi w) = L -> (2 <= L)%nat ->
  let nax := map (norm_axis (rank lo)) axes in
  coeffs_fit (sdets S) nax L lo levels ->
  synthesise S (container S lo levels) w = Ok y ->
  forall idx, fib_ok nax idx (shp lo) ->
    synthesise (sdefault S) (pc_map (fibre nax idx) (container S lo levels)) w = Ok (fibre nax idx y).
Proof.
  intros Hw Hd Hh Hl Hax H1 H2 HL nax Hf Ey idx Hi. rewrite (synth_ok S lo levels w L axes) in Ey by assumption. apply ok_inj in Ey. subst y. fold nax.
  assert (HC : (1 <= sdets S)%nat) by (destruct S; cbn; lia).
  assert (Hn : List.length nax = sdim S) by (unfold nax; rewrite map_length; exact Hl).
  assert (Hg : good_axes (rank lo) nax) by (apply good_axes_ok; exact Hax).
  rewrite (fibre_recN (sdets S) nax L _ idx) by (auto using schans_len).
  rewrite container_map. set (lof := fibre nax idx lo). assert (Hrf : rank lof = sdim S) by (unfold lof; rewrite rank_fibre; exact Hn).
  assert (Hhd : hint_axes (shint (sdefault S)) (sdim (sdefault S)) = Some (default_axes (sdim S))) by (destruct S; reflexivity).
  assert (Eax : map (norm_axis (rank lof)) (default_axes (sdim S)) = seq 0 (List.length nax)).
  { rewrite Hrf, default_axes_norm by lia. rewrite Nat.sub_diag, Hn. reflexivity. }
  assert (ED : sdim (sdefault S) = sdim S) by (destruct S; reflexivity).
  assert (EC : sdets (sdefault S) = sdets S) by (destruct S; reflexivity).
  assert (ECh : schans (sdefault S) (rec_lo w) (rec_hi w) = schans S (rec_lo w) (rec_hi w)) by (destruct S; reflexivity).
  rewrite (synth_ok (sdefault S) lof _ w L (default_axes (sdim S))); try assumption.
  - rewrite Eax, ECh. reflexivity.
  - apply wf_fibre.
  - rewrite ED. unfold default_axes. rewrite map_length, seq_length. reflexivity.
  - apply default_axes_ok. lia.
  - rewrite Eax, EC. apply fibre_fit; assumption.
Qed.
End Nd.
