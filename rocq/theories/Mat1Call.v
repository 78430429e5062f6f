(** MatrixWavedec.__call__ and MatrixWaverec.__call__: what a call on an object with an intact cache returns, and
    that the cache stays intact. *)
From Coq Require Import List Arith ZArith Lia Bool String Ring.
From Coq Require Import ZifyNat ZifyBool.
From Verif Require Import Base Sums Tensor TensorFacts Util Perm Plumb Accept Spec Conv1 PadFacts CoreFacts Synthesis Filters Wave1 Wave1Inv Rec1 SepFacts Lin Sparse SparseFacts SparseConv SpecMat SparseMM LinAlg GramSchmidt Mat1 MatOrth Boundary MatPre Mat1Facts.
Import ListNotations.
Ltac Zify.zify_post_hook ::= Z.div_mod_to_equations.
Local Arguments Nat.div : simpl never.
Local Arguments Nat.modulo : simpl never.

Section MC.
Context {K : CRing}.
Add Ring Kring : (cr_th K).
Open Scope K_scope.
Implicit Types (t u x : tensor K) (w : wavelet K).

(** ** the transform on the original axis and in the folded layout *)
Lemma padable2 m n : (2 <= n)%nat -> padable m n.
Proof. destruct m; cbn; lia. Qed.
Section Tr.
Variables (A : nat -> nat -> nat -> K) (m : mode) (L : nat) (a : nat).
Hypothesis HL : (2 <= L)%nat.
Lemma bw_lo_shp x : shp (bw_lo A m a x) = updn a (even_up (nth a (shp x) 0%nat) / 2)%nat (shp x).
Proof. unfold bw_lo. rewrite shp_mat_axis, shp_ext_even. cbn [gather map upds]. unfold bw_size. apply updn_updn. Qed.
Lemma bw_hi_shp x : shp (bw_hi A m a x) = updn a (even_up (nth a (shp x) 0%nat) / 2)%nat (shp x).
Proof. unfold bw_hi. rewrite shp_mat_axis, shp_ext_even. cbn [gather map upds]. unfold bw_size. apply updn_updn. Qed.
Lemma fsz_updn k (s : list nat) : fsz [a] (updn a k s) = fsz [a] s.
Proof.
  unfold fsz. rewrite updn_length. unfold gather. apply map_ext_in. intros d Hd. apply in_front in Hd. destruct Hd as [_ Hd].
  apply nth_updn_ne. intros ->. apply Hd. left. reflexivity.
Qed.
Lemma bw_facts x : (a < rank x)%nat ->
  (rank (bw_lo A m a x) = rank x /\ fsz [a] (shp (bw_lo A m a x)) = fsz [a] (shp x) /\ nth a (shp (bw_lo A m a x)) 0%nat = (even_up (nth a (shp x) 0%nat) / 2)%nat) /\
  (rank (bw_hi A m a x) = rank x /\ fsz [a] (shp (bw_hi A m a x)) = fsz [a] (shp x) /\ nth a (shp (bw_hi A m a x)) 0%nat = (even_up (nth a (shp x) 0%nat) / 2)%nat).
Proof.
  intros Ha. unfold rank in *. rewrite bw_lo_shp, bw_hi_shp, updn_length, fsz_updn. rewrite nth_updn_eq by exact Ha. auto.
Qed.
Lemma approx_pre J : forall x, wf x -> (a < rank x)%nat -> fitsJ L J (nth a (shp x) 0%nat) ->
  wf (bw_approx A m a J x) /\ rank (bw_approx A m a J x) = rank x /\ fsz [a] (shp (bw_approx A m a J x)) = fsz [a] (shp x) /\
  ttag (bw_approx A m a J x) = ttag x /\ pre_t [a] (bw_approx A m a J x) = bw_approx A m 1 J (pre_t [a] x).
Proof.
  unfold bw_approx. induction J as [|J IH]; intros x Hw Ha Hf; [repeat split; auto|]. rewrite !iter_r. destruct Hf as [Hn Hf].
  destruct (bw_facts x Ha) as [(Hr & Hfs & Hs) _].
  destruct (IH (bw_lo A m a x)) as (H1 & H2 & H3 & H4 & H5); [apply wf_mat_axis|lia|rewrite Hs; exact Hf|].
  rewrite (proj1 (pre_bw_lo A m a x Hw Ha (or_intror (padable2 m (nth a (shp x) 0%nat) ltac:(lia))))) in H5. change (ttag (bw_lo A m a x)) with (ttag x) in H4. repeat split; congruence.
Qed.
Lemma fits_after J : forall n j, (j < J)%nat -> fitsJ L J n -> exists nj, fitsJ L j n /\ (L <= nj)%nat /\ forall x, (a < rank x)%nat -> nth a (shp x) 0%nat = n -> nth a (shp (bw_approx A m a j x)) 0%nat = nj.
Proof.
  induction J as [|J IH]; intros n j Hj Hf; [lia|]. destruct Hf as [Hn Hf]. destruct j as [|j].
  - exists n. split; [exact I|]. split; [exact Hn|]. intros x _ H. exact H.
  - destruct (IH (even_up n / 2)%nat j ltac:(lia) Hf) as (nj & H1 & H2 & H3). exists nj. split; [split; assumption|]. split; [exact H2|].
    intros x Ha Hx. unfold bw_approx. rewrite iter_r. destruct (bw_facts x Ha) as [(Hr & _ & Hs) _]. apply H3; [lia|]. rewrite Hs, Hx. reflexivity.
Qed.
Lemma detail_pre J j x : wf x -> (a < rank x)%nat -> fitsJ L J (nth a (shp x) 0%nat) -> (j < J)%nat ->
  let d := bw_hi A m a (bw_approx A m a j x) in
  wf d /\ rank d = rank x /\ fsz [a] (shp d) = fsz [a] (shp x) /\ ttag d = ttag x /\ pre_t [a] d = bw_hi A m 1 (bw_approx A m 1 j (pre_t [a] x)).
Proof.
  intros Hw Ha Hf Hj d. destruct (fits_after J _ j Hj Hf) as (nj & Hfj & Hnj & Hx). specialize (Hx x Ha eq_refl).
  destruct (approx_pre j x Hw Ha Hfj) as (H1 & H2 & H3 & H4 & H5). destruct (bw_facts (bw_approx A m a j x) ltac:(lia)) as [_ (G1 & G2 & _)]. unfold d.
  split; [apply wf_mat_axis|]. split; [congruence|]. split; [congruence|]. split; [exact H4|].
  rewrite (proj2 (pre_bw_lo A m a _ H1 ltac:(lia) (or_intror (padable2 m (nth a (shp (bw_approx A m a j x)) 0%nat) ltac:(lia))))). rewrite H5. reflexivity.
Qed.
Definition folded (J : nat) t : list (tensor K) := bw_approx A m 1 J t :: rev (map (fun j => bw_hi A m 1 (bw_approx A m 1 j t)) (seq 0 J)).
Lemma coeffs_all J x : wf x -> (a < rank x)%nat -> fitsJ L J (nth a (shp x) 0%nat) ->
  forall c, In c (bw_coeffs A m a J x) -> wf c /\ rank c = rank x /\ fsz [a] (shp c) = fsz [a] (shp x) /\ ttag c = ttag x.
Proof.
  intros Hw Ha Hf c [<-|Hc].
  - destruct (approx_pre J x Hw Ha Hf) as (H1 & H2 & H3 & H4 & _). auto.
  - apply in_map_iff in Hc as (j & <- & Hj). apply in_rev, in_seq in Hj. destruct (detail_pre J j x Hw Ha Hf ltac:(lia)) as (H1 & H2 & H3 & H4 & _). auto.
Qed.
Lemma coeffs_pre J x : wf x -> (a < rank x)%nat -> fitsJ L J (nth a (shp x) 0%nat) ->
  map (pre_t [a]) (bw_coeffs A m a J x) = folded J (pre_t [a] x).
Proof.
  intros Hw Ha Hf. unfold bw_coeffs, folded. cbn [map]. f_equal; [apply (approx_pre J x Hw Ha Hf)|]. rewrite <- map_rev, map_map. apply map_ext_in.
  intros j Hj. apply in_rev, in_seq in Hj. apply (detail_pre J j x Hw Ha Hf). lia.
Qed.
End Tr.

Lemma dim_last_pre a x : dim_last (pre_t [a] x) 1 = nth a (shp x) 0%nat.
Proof. reflexivity. Qed.

Lemma first_pad w m x a odd : wf x -> (a < rank x)%nat -> translate_boundary odd = Ok (emode m) -> evenable m (nth a (shp x) 0%nat) ->
  (if Nat.eqb (dim_last (pre_t [a] x) 1 mod 2) 0 then Ok (pre_t [a] x) else fwt_pad (pre_t [a] x) w odd (Some (0%nat, 1%nat))) = Ok (pre_t [a] (ext_even m [a] x)).
Proof.
  intros Hw Ha Ho He. rewrite dim_last_pre, (pre_ext_even m a x Hw Ha He). pose proof (good_axes1 (rank x) a Ha) as Hg. pose proof (pre_t_wf [a] x Hg) as Hwp.
  assert (Hs : shp (pre_t [a] x) = [prodl (fsz [a] (shp x)); nth a (shp x) 0%nat]) by reflexivity.
  destruct (Nat.eqb_spec (nth a (shp x) 0%nat mod 2) 0) as [H0|H0].
  - rewrite (E_even m _ _ _ Hwp Hs); [reflexivity|constructor; [exact H0|constructor]].
  - destruct He as [He|He]; [lia|]. unfold fwt_pad. rewrite Ho. cbn [rbind].
    pose proof (E_pad m _ _ _ Hwp Hs ltac:(cbn; lia) (Forall_cons _ He (Forall_nil _))) as HP. cbn [evpads map rev app] in HP.
    replace (nth a (shp x) 0%nat mod 2)%nat with 1%nat in HP by lia. exact HP.
Qed.

Variables (LA : linalg K) (w : wavelet K) (method : string) (m : mode) (L : nat).
Section Tagged.
Variable g : tag.
Hypothesis HA : mats_ok LA w method L g.
Hypothesis HL : (2 <= L)%nat.
Hypothesis Hdl : List.length (dec_lo w) = L.
Hypothesis Hrl : List.length (rec_lo w) = L.
Hypothesis Htr : forall n, construct_boundary_s LA g w n method = (let* a := construct_boundary_a LA g w n method in Ok (sp_t a)).
Let A := Bm LA w method g.

(** the cache is empty, or what a call with this level and this length would build *)
Definition mw_cached (o : mwavedec K) : Prop := mw_mats o = [] \/
  exists n lev, mw_len o = Some n /\ mw_level o = Some lev /\ mw_mats o = bmats LA w method g (bw_levels (Z.to_nat lev) L n) n /\ mw_pads o = bpads (bw_levels (Z.to_nat lev) L n) n.
(** the level used: the explicit one, or int(log2(length / (L - 1))) *)
Definition mw_lev (level : option Z) (len : nat) : result Z :=
  match level with None => mat_level (get_len w) len | Some l => if (l <=? 0)%Z then Raise ValueError else Ok l end.

(** the call *)
Theorem mw_call_ok (o : mwavedec K) x axis odd lev : mw_wav o = w -> mw_method o = method -> mw_odd o = odd -> mw_axis o = axis ->
  translate_boundary odd = Ok (emode m) -> wf x -> is_dtype_supported (tdtype x) = true -> ttag x = g -> axis_ok (rank x) axis ->
  let a := norm_axis (rank x) axis in
  evenable m (nth a (shp x) 0%nat) -> mw_cached o ->
  mw_lev (mw_level o) (even_up (nth a (shp x) 0%nat)) = Ok lev ->
  let J := bw_levels (Z.to_nat lev) L (even_up (nth a (shp x) 0%nat)) in
  exists o', mw_call LA o x = (o', Ok (mkPC true (map PT (bw_coeffs A m a J (ext_even m [a] x))))) /\
    mw_wav o' = w /\ mw_method o' = method /\ mw_odd o' = odd /\ mw_axis o' = axis /\ mw_level o' = Some lev /\ mw_cached o' /\
    mw_mats o' = bmats LA w method g J (even_up (nth a (shp x) 0%nat)) /\ mw_padded o' = (if match mw_mats o with [] => true | _ => match mw_level o with None => true | Some _ => negb (match mw_len o with Some l => Nat.eqb l (even_up (nth a (shp x) 0%nat)) | None => false end) end end then existsb (fun b => b) (bpads J (even_up (nth a (shp x) 0%nat))) else mw_padded o).
Proof.
  intros Ew Em Eo Eax Ho Hw Hdt Hg Hax a He Hinv Hlev J. set (n := nth a (shp x) 0%nat) in *.
  pose proof (norm_axis_lt _ _ Hax) as Ha. fold a in Ha. pose proof (good_axes1 (rank x) a Ha) as Hga.
  unfold mw_call. rewrite Eax, Eo, Ew, Em. rewrite (preprocess_tensor_ok x 1 (AxInt axis) [axis] false Hw Hdt); auto; [|apply axis_axes_ok, Hax].
  cbn [map]. fold a. cbn match. rewrite (first_pad w m x a odd Hw Ha Ho He).
  set (X := ext_even m [a] x). assert (HsX : shp X = updn a (even_up n) (shp x)) by (unfold X; rewrite shp_ext_even; reflexivity).
  assert (HrX : rank X = rank x) by (unfold rank; rewrite HsX; apply updn_length).
  assert (HnX : nth a (shp X) 0%nat = even_up n) by (rewrite HsX; apply nth_updn_eq, Ha).
  assert (HwX : wf X) by apply wf_make. assert (HgX : ttag X = g) by exact Hg.
  assert (HfX : fsz [a] (shp X) = fsz [a] (shp x)) by (rewrite HsX; apply fsz_updn).
  rewrite dim_last_pre, HnX. set (c := even_up n) in *.
  assert (Hfit : fitsJ L J (nth a (shp X) 0%nat)) by (rewrite HnX; apply fits_levels).
  assert (Hshp : shp (pre_t [a] X) = [prodl (fsz [a] (shp X)); c]) by (rewrite <- HnX; reflexivity).
  (* the loop and the postprocessing, for an object with the right matrices *)
  assert (Hrest : forall o2, mw_wav o2 = w -> mw_odd o2 = odd -> mw_axis o2 = axis -> mw_mats o2 = bmats LA w method g J c -> mw_pads o2 = bpads J c ->
    (let* cs := mw_loop (mw_wav o2) (mw_odd o2) (mw_mats o2) (mw_pads o2) (tT (pre_t [a] X)) [] in
     postprocess_coeffs (mkPC true (map PT (map tT (rev cs)))) 1 (fsz [a] (shp x) ++ gather [a] 0%nat (shp x)) (AxInt (mw_axis o2))) =
     Ok (mkPC true (map PT (bw_coeffs A m a J X)))).
  { intros o2 E1 E2 E3 E4 E5. rewrite E1, E2, E3, E4, E5.
    rewrite (mw_loop_ok LA w method m L g HA HL Hdl Hrl Htr odd Ho J (pre_t [a] X) (prodl (fsz [a] (shp X))) c); [|apply pre_t_wf; rewrite HrX; exact Hga|exact Hshp|exact Hg|rewrite <- HnX; exact Hfit].
    cbn [rbind app]. rewrite rev_app_distr. cbn [rev app map].
    assert (Hcs : tT (tT (apx1 LA w method m g J (pre_t [a] X))) :: map tT (rev (map tT (dets1 LA w method m g J (pre_t [a] X)))) = map (pre_t [a]) (bw_coeffs A m a J X)).
    { rewrite (coeffs_pre A m L a HL J X HwX ltac:(lia) Hfit). unfold folded. f_equal.
      - apply (tT_tT _ (prodl (fsz [a] (shp x))) (nth a (shp (bw_approx A m a J X)) 0%nat)).
        + destruct (approx_pre A m L a HL J X HwX ltac:(lia) Hfit) as (_ & H2 & _ & _ & H5). unfold apx1. fold A. rewrite <- H5. apply pre_t_wf. rewrite H2, HrX. exact Hga.
        + destruct (approx_pre A m L a HL J X HwX ltac:(lia) Hfit) as (_ & _ & H3 & _ & H5). unfold apx1. fold A. rewrite <- H5. rewrite <- HfX, <- H3. reflexivity.
      - rewrite <- map_rev, map_map. transitivity (map (fun t : tensor K => t) (rev (dets1 LA w method m g J (pre_t [a] X)))); [|apply map_id].
        apply map_ext_in. intros d Hd. apply in_rev in Hd. unfold dets1 in Hd. apply in_map_iff in Hd as (j & <- & Hj). apply in_seq in Hj.
        destruct (detail_pre A m L a HL J j X HwX ltac:(lia) Hfit ltac:(lia)) as (_ & D2 & D3 & _ & D5). unfold hi1, apx1. fold A. rewrite <- D5.
        apply (tT_tT _ (prodl (fsz [a] (shp x))) (nth a (shp (bw_hi A m a (bw_approx A m a j X))) 0%nat)); [apply pre_t_wf; rewrite D2, HrX; exact Hga|]. rewrite <- HfX, <- D3. reflexivity. }
    match goal with |- context [PT ?u :: map PT ?l] => change (PT u :: map PT l) with (map PT (u :: l)) end. rewrite Hcs.
    rewrite (postprocess_coeffs_ok _ 1 (AxInt axis) [axis] (rank x)); auto.
    - cbn [map]. fold a. rewrite pc_map_list. do 3 f_equal. rewrite map_map. transitivity (map (fun t : tensor K => t) (bw_coeffs A m a J X)); [|apply map_id].
      apply map_ext_in. intros d Hd. destruct (coeffs_all A m L a HL J X HwX ltac:(lia) Hfit d Hd) as (D1 & D2 & D3 & _). rewrite <- HfX, <- D3. apply post_pre; [exact D1|]. rewrite D2, HrX. exact Hga.
    - apply pc_regular_list. discriminate.
    - apply axis_axes_ok, Hax.
    - rewrite fsz_length by exact Hga. reflexivity.
    - rewrite pc_tensors_list. intros d Hd. apply in_map_iff in Hd as (q & <- & Hq). destruct (coeffs_all A m L a HL J X HwX ltac:(lia) Hfit q Hq) as (D1 & D2 & D3 & _).
      split; [apply pre_t_wf; rewrite D2, HrX; exact Hga|]. exists (gather [a] 0%nat (shp q)). split; [|reflexivity]. rewrite <- HfX, <- D3. reflexivity. }
  destruct (build_analysis_eq LA w method L g HA HL Hdl Hrl Htr (Z.to_nat lev) c [] [] false []) as [sz Hbuild]. cbn [app orb] in Hbuild. fold J in Hbuild.
  assert (Hrb : forall o1, mw_wav o1 = w -> mw_method o1 = method -> mw_odd o1 = odd -> mw_axis o1 = axis ->
    let o2 := with_mats o1 c (Some lev) (bmats LA w method g J c, bpads J c, existsb (fun b => b) (bpads J c), sz) in
    (let* cs := mw_loop (mw_wav o2) (mw_odd o2) (mw_mats o2) (mw_pads o2) (tT (pre_t [a] X)) [] in
     postprocess_coeffs (mkPC true (map PT (map tT (rev cs)))) 1 (fsz [a] (shp x) ++ gather [a] 0%nat (shp x)) (AxInt (mw_axis o2))) = Ok (mkPC true (map PT (bw_coeffs A m a J X))) /\
    mw_wav o2 = w /\ mw_method o2 = method /\ mw_odd o2 = odd /\ mw_axis o2 = axis /\ mw_level o2 = Some lev /\ mw_cached o2 /\ mw_mats o2 = bmats LA w method g J c).
  { intros o1 E1 E2 E3 E4 o2. split; [apply Hrest; auto|]. repeat (split; [first [assumption|reflexivity]|]). split; [|reflexivity]. right. exists c, lev. repeat split; reflexivity. }
  assert (HtagX : ttag (pre_t [a] X) = g) by exact Hg.
  destruct (mw_level o) as [l|] eqn:El; cbn [mw_lev] in Hlev.
  - destruct (l <=? 0)%Z eqn:Hl; [discriminate|]. injection Hlev as ->.
    destruct (mw_mats o) as [|a0 mats] eqn:Emats; [|destruct (mw_len o) as [l0|] eqn:Elen; [destruct (Nat.eqb_spec l0 c) as [Hc|Hc]|]];
      cbn [with_level mw_mats negb orb]; rewrite ?Emats; cbn match.
    + rewrite HtagX, Hbuild. cbn match. destruct (Hrb (with_level o c (Some lev)) Ew Em Eo Eax) as (R1 & R2 & R3 & R4 & R5 & R6 & R7 & R8). eexists. split; [exact (f_equal2 pair eq_refl R1)|]. repeat (split; [assumption|]). reflexivity.
    + destruct Hinv as [Hi|(n0 & lev0 & I1 & I2 & I3 & I4)]; [congruence|]. rewrite El in I2. injection I2 as <-. rewrite Elen in I1. injection I1 as <-. subst l0. fold J in I3, I4.
      eexists. split; [apply (f_equal2 pair eq_refl); apply Hrest; auto; cbn [with_level mw_mats]; congruence|]. cbn [with_level mw_wav mw_method mw_odd mw_axis mw_level mw_mats mw_padded].
      repeat (split; [assumption || reflexivity|]). split; [|split; [congruence|reflexivity]]. right. exists c, lev. cbn [with_level mw_len mw_level mw_mats mw_pads]. fold J. repeat split; congruence.
    + rewrite HtagX, Hbuild. cbn match. destruct (Hrb (with_level o c (Some lev)) Ew Em Eo Eax) as (R1 & R2 & R3 & R4 & R5 & R6 & R7 & R8). eexists. split; [exact (f_equal2 pair eq_refl R1)|]. repeat (split; [assumption|]). reflexivity.
    + rewrite HtagX, Hbuild. cbn match. destruct (Hrb (with_level o c (Some lev)) Ew Em Eo Eax) as (R1 & R2 & R3 & R4 & R5 & R6 & R7 & R8). eexists. split; [exact (f_equal2 pair eq_refl R1)|]. repeat (split; [assumption|]). reflexivity.
  - rewrite Hlev. cbn [rbind]. rewrite orb_true_r. rewrite HtagX, Hbuild. cbn match.
    destruct (Hrb (with_level o c (Some lev)) Ew Em Eo Eax) as (R1 & R2 & R3 & R4 & R5 & R6 & R7 & R8). eexists. split; [exact (f_equal2 pair eq_refl R1)|]. repeat (split; [assumption|]). destruct (mw_mats o); reflexivity.
Qed.

(** ** MatrixWaverec *)
Definition mr_cached (r : mwaverec K) : Prop := mr_mats r = [] \/
  exists lvl len, mr_level r = Some lvl /\ mr_len r = Some len /\ mr_mats r = map sp_t (bmats LA w method g (bw_levels lvl L len) len).
Lemma bmats_even J n : bmats LA w method g J (even_up n) = bmats LA w method g J n.
Proof. destruct J; [reflexivity|]. cbn [bmats]. rewrite (even_up_id _ (even_up_even n)). reflexivity. Qed.
Lemma fits_even J n : fitsJ L J n -> fitsJ L J (even_up n).
Proof. destruct J; [auto|]. intros [H1 H2]. pose proof (even_up_ge n). split; [lia|]. rewrite (even_up_id _ (even_up_even n)). exact H2. Qed.

Theorem mr_call_ok (r : mwaverec K) X axis J : mr_wav r = w -> mr_method r = method -> mr_axes r = [axis] ->
  wf X -> is_dtype_supported (tdtype X) = true -> ttag X = g -> axis_ok (rank X) axis ->
  let a := norm_axis (rank X) axis in
  fitsJ L J (nth a (shp X) 0%nat) -> mr_cached r ->
  exists r', mr_call LA r (map PT (bw_coeffs A m a J X)) = (r', Ok (if Nat.eqb J 0 then X else ext_even m [a] X)) /\
    mr_wav r' = w /\ mr_method r' = method /\ mr_axes r' = [axis] /\ mr_cached r' /\ ((0 < J)%nat -> mr_mats r' = map sp_t (bmats LA w method g J (nth a (shp X) 0%nat)) /\ (mr_mats r = [] -> mr_padded r' = existsb (fun b => b) (bpads J (even_up (nth a (shp X) 0%nat))))).
Proof.
  intros Ew Em Eax HwX Hdt HgX Hax a Hfit Hinv. set (n := nth a (shp X) 0%nat) in *.
  pose proof (norm_axis_lt _ _ Hax) as Ha. fold a in Ha. pose proof (good_axes1 (rank X) a Ha) as Hga.
  assert (Hshp : shp (pre_t [a] X) = [prodl (fsz [a] (shp X)); n]) by reflexivity.
  assert (HwP : wf (pre_t [a] X)) by (apply pre_t_wf, Hga).
  pose proof (coeffs_all A m L a HL J X HwX Ha Hfit) as Hall.
  unfold mr_call. rewrite Eax, Ew, Em.
  rewrite (preprocess_coeffs_ok (mkPC true (map PT (bw_coeffs A m a J X))) 1 (AxSeq [axis]) [axis] (rank X) false); auto.
  2: { apply pc_regular_list. discriminate. }
  2: { unfold first_dtype, bw_coeffs. cbn [map pc_items]. destruct (Hall _ (or_introl eq_refl)) as (_ & _ & _ & Ht). unfold tdtype in *. rewrite Ht. exact Hdt. }
  2: { apply axis_axes_ok, Hax. }
  2: { rewrite pc_tensors_list. intros t Ht. destruct (Hall t Ht) as (H1 & H2 & _). auto. }
  cbn [map rbind fst snd]. fold a. rewrite pc_map_list.
  match goal with |- context [map (B := tensor K) ?f (bw_coeffs A m a J X)] => change f with (pre_t (K := K) [a]) end.
  rewrite (coeffs_pre A m L a HL J X HwX Ha Hfit).
  rewrite (check_same_ok (folded A m J (pre_t [a] X)) g); [|discriminate|].
  2: { rewrite <- (coeffs_pre A m L a HL J X HwX Ha Hfit). apply Forall_forall. intros t Ht. apply in_map_iff in Ht as (q & <- & Hq). destruct (Hall q Hq) as (_ & _ & _ & Hq'). change (ttag q = g). congruence. }
  cbn [rbind pc_items]. rewrite rmap_as_tensor. cbn [rbind].
  assert (Hlen : (List.length (folded A m J (pre_t [a] X)) - 1)%nat = J).
  { unfold folded. cbn [List.length]. rewrite rev_length, map_length, seq_length. lia. }
  rewrite Hlen.
  assert (Hmats : (0 < J)%nat -> (match rev (folded A m J (pre_t [a] X)) with t :: _ => dim_last t 1 * 2 | [] => 0 end)%nat = even_up n).
  { intros HJ. unfold folded. cbn [rev]. rewrite rev_involutive. destruct J as [|J']; [lia|]. cbn [seq map app].
    change (bw_approx A m 1 0 (pre_t [a] X)) with (pre_t [a] X). destruct Hfit as [Hn _].
    pose proof (hi1_shp LA w method m L g HL Hdl Hrl Htr (pre_t [a] X) _ n HwP Hshp Hn) as Hh. unfold hi1 in Hh. fold A in Hh. unfold dim_last, rank. rewrite Hh. cbn.
    pose proof (even_up_even n). lia. }
  set (len := (match rev (folded A m J (pre_t [a] X)) with t :: _ => dim_last t 1 * 2 | [] => 0 end)%nat) in *.
  destruct (build_synthesis_eq LA w method L g HA HL Hdl Hrl Htr J len [] false []) as [sz Hbuild]. cbn [app orb] in Hbuild.
  assert (Hbm : bmats LA w method g (bw_levels J L len) len = bmats LA w method g J n).
  { destruct (Nat.eq_dec J 0) as [->|HJ]; [reflexivity|]. rewrite Hmats by lia. rewrite levels_fits by (apply fits_even; exact Hfit). apply bmats_even. }
  assert (Hrest : forall r2, mr_axes r2 = [axis] -> mr_mats r2 = map sp_t (bmats LA w method g J n) ->
    match map tT (folded A m J (pre_t [a] X)) with
    | [] => Raise IndexError
    | lo :: his => let* res := mr_loop (rev (mr_mats r2)) lo his in postprocess_tensor (tT res) 1 (fsz [a] (first_shape (mkPC true (map PT (bw_coeffs A m a J X)))) ++ gather [a] 0%nat (first_shape (mkPC true (map PT (bw_coeffs A m a J X))))) (AxSeq (mr_axes r2)) end
    = Ok (if Nat.eqb J 0 then X else ext_even m [a] X)).
  { intros r2 E1 E2. rewrite E1, E2. unfold folded. cbn [map].
    pose proof (mr_loop_full LA w method m L g HA HL Hdl Hrl Htr J (pre_t [a] X) _ n HwP Hshp HgX Hfit) as HM. unfold apx1, dets1, hi1, apx1 in HM. fold A in HM. rewrite HM. cbn [rbind].
    assert (Hres : (if Nat.eqb J 0 then pre_t [a] X else E m (pre_t [a] X)) = pre_t [a] (if Nat.eqb J 0 then X else ext_even m [a] X)).
    { destruct (Nat.eqb_spec J 0) as [H0|H0]; [reflexivity|]. symmetry. apply pre_ext_even; auto. right. apply padable2. destruct J; [lia|]. destruct Hfit as [Hn _]. fold n. lia. }
    rewrite Hres. set (R := if Nat.eqb J 0 then X else ext_even m [a] X).
    assert (HR : wf R /\ rank R = rank X /\ fsz [a] (shp R) = fsz [a] (shp X)).
    { unfold R. destruct (Nat.eqb J 0); [auto|]. split; [apply wf_make|]. split; [apply rank_along|]. apply fsz_along, Hga. }
    destruct HR as (R1 & R2 & R3).
    assert (HgR : good_axes (rank R) [a]) by (rewrite R2; exact Hga).
    assert (HfS : fsz [a] (first_shape (mkPC true (map PT (bw_coeffs A m a J X)))) = fsz [a] (shp X)).
    { unfold first_shape, bw_coeffs. cbn [map pc_items]. apply (Hall _ (or_introl eq_refl)). }
    rewrite (tT_tT (pre_t [a] R) (prodl (fsz [a] (shp R))) (nth a (shp R) 0%nat) (pre_t_wf [a] R HgR) eq_refl).
    rewrite (postprocess_tensor_ok (pre_t [a] R) 1 (AxSeq [axis]) [axis] (rank X)); auto.
    - cbn [map]. fold a. rewrite HfS, <- R3. f_equal. apply post_pre; assumption.
    - apply axis_axes_ok, Hax.
    - rewrite HfS, fsz_length by exact Hga. reflexivity.
    - apply pre_t_wf, HgR.
    - rewrite HfS, <- R3. exists (gather [a] 0%nat (shp R)). split; reflexivity. }
  assert (Hnew : let r2 := mkMR w [axis] method (map sp_t (bmats LA w method g J n)) (Some J) (Some len) (existsb (fun b => b) (bpads (bw_levels J L len) len)) sz in
     mr_wav r2 = w /\ mr_method r2 = method /\ mr_axes r2 = [axis] /\ mr_cached r2 /\ ((0 < J)%nat -> mr_mats r2 = map sp_t (bmats LA w method g J n) /\ (mr_mats r = [] -> mr_padded r2 = existsb (fun b => b) (bpads J (even_up n))))).
  { cbv zeta. cbn [mr_wav mr_method mr_axes mr_mats mr_padded]. repeat (split; [reflexivity|]). split; [|intros HJ; split; [reflexivity|]; intros _; rewrite Hmats by exact HJ; rewrite levels_fits by (apply fits_even; exact Hfit); reflexivity]. right. exists J, len. cbn [mr_level mr_len mr_mats]. rewrite Hbm. auto. }
  destruct (mr_mats r) as [|s0 ms] eqn:Ems.
  - cbn match. rewrite orb_true_l. rewrite Hbuild, Hbm. cbn match. eexists. split; [apply (f_equal2 pair eq_refl); apply Hrest; reflexivity|]. rewrite ?Ems in Hnew. exact Hnew.
  - rewrite orb_false_l.
    destruct (match mr_level r with Some l => Nat.eqb l J | None => false end && match mr_len r with Some l => Nat.eqb l len | None => false end) eqn:Ereb; cbn [negb].
    + destruct Hinv as [Hi|(lvl & len' & I1 & I2 & I3)]; [congruence|]. rewrite I1, I2 in Ereb. apply andb_true_iff in Ereb as [B1 B2]. apply Nat.eqb_eq in B1, B2. subst lvl len'. rewrite Hbm in I3.
      assert (Emm : mr_mats r = map sp_t (bmats LA w method g J n)) by congruence.
      eexists. split; [apply (f_equal2 pair eq_refl); apply (Hrest r Eax Emm)|]. repeat (split; [assumption|]). split; [|intros _; split; [exact Emm|congruence]]. right. exists J, len. rewrite Hbm. auto.
    + rewrite Hbuild, Hbm. cbn match. eexists. split; [apply (f_equal2 pair eq_refl); apply Hrest; reflexivity|]. rewrite ?Ems in Hnew. exact Hnew.
Qed.
End Tagged.
End MC.
