(** Property theorems for the 2d/3d padded transforms, invalid inputs, dtype/device. *)
From Coq Require Import List Arith ZArith Lia Bool String.
From Coq Require Import ZifyNat ZifyBool.
From Verif Require Import Base Sums Tensor TensorFacts Util Perm Plumb Accept Spec Conv1 PadFacts CoreFacts Analysis AnalysisInv PRKernel Synthesis Filters Wave1 Wave1Inv Rec1 Rec1Inv Lin Examples Props1 Conv2 Conv3 Spec2 WaveN RecN.
Import ListNotations.
Ltac Zify.zify_post_hook ::= Z.div_mod_to_equations.

Section P2.
Context {K : CRing}.
Add Ring Kring : (cr_th K).
Implicit Types t u x y : tensor K.
Implicit Types w : wavelet K.

(** what a successful call tells about the arguments, and its result *)
Lemma wavedec2_result x w m L level h c : wf x -> List.length (dec_lo w) = L -> List.length (dec_hi w) = L -> 2 <= L -> Nat.even L = true ->
  wavedec2 x w (Some (mode_name m)) level h = Ok c ->
  is_dtype_supported (tdtype x) = true /\ exists axes, hint_axes h 2 = Some axes /\ List.length axes = 2 /\ axes_ok (rank x) axes /\
    let nax := map (norm_axis (rank x)) axes in
    let ns := gather nax 0 (shp x) in
    let J := num_levels level L ns in
    levels_all m L J ns /\ c = wavedec2_spec (dec_lo w) (dec_hi w) m nax J x.
Proof.
  intros Hw H1 H2 HL He H. destruct (wavedec2_inv _ _ _ _ _ _ H) as (Hd & axes & Hh & Hl & Hax).
  split; [exact Hd|]. exists axes. repeat (split; [assumption|]).
  pose proof (wavedec2_cases x w m L level h axes Hw Hd Hh Hl Hax H1 H2 HL He) as Hc. cbv zeta in Hc. rewrite H in Hc. exact Hc.
Qed.
Lemma wavedec3_result x w m L level h c : wf x -> List.length (dec_lo w) = L -> List.length (dec_hi w) = L -> 2 <= L -> Nat.even L = true ->
  wavedec3 x w (Some (mode_name m)) level h = Ok c -> 
  is_dtype_supported (tdtype x) = true /\ exists axes, hint_axes h 3 = Some axes /\ List.length axes = 3 /\ axes_ok (rank x) axes /\
    let nax := map (norm_axis (rank x)) axes in
    let ns := gather nax 0 (shp x) in
    let J := num_levels level L ns in
    0 < J -> levels_all m L J ns /\ c = wavedec3_spec (dec_lo w) (dec_hi w) m nax J x.
Proof.
  intros Hw H1 H2 HL He H. destruct (wavedec3_inv _ _ _ _ _ _ H) as (Hd & axes & Hh & Hl & Hax).
  split; [exact Hd|]. exists axes. repeat (split; [assumption|]). cbv zeta. intros HJ.
  pose proof (wavedec3_cases x w m L level h axes Hw Hd Hh Hl Hax H1 H2 HL He) as Hc. cbv zeta in Hc. specialize (Hc HJ). rewrite H in Hc. exact Hc.
Qed.

(** ** C13 *)
Theorem C13_perfect_reconstruction_2d x w m L level h c :
  cancel2 K -> pr_bank (dec_lo w) (dec_hi w) (rec_lo w) (rec_hi w) L -> wf x ->
  wavedec2 x w (Some (mode_name m)) level h = Ok c ->
  exists axes y, hint_axes h 2 = Some axes /\ waverec2 c w h = Ok y /\ agrees_on x y /\
    (* sizes: one more on each odd transformed axis if a level was computed, nothing else *)
    let nax := map (norm_axis (rank x)) axes in
    shp y = upds nax (map (fun n => if Nat.eqb (List.length (pc_items c)) 1 then n else n + n mod 2) (gather nax 0 (shp x))) (shp x).
Proof.
  intros Hc Hpr Hw H. pose proof (pr_len _ _ _ _ _ Hpr) as (H1 & H2 & H3 & H4). pose proof (pr_two _ _ _ _ _ Hpr) as HL.
  pose proof (pr_even _ _ _ _ _ Hpr) as He.
  destruct (wavedec2_result x w m L level h c Hw H1 H2 HL He H) as (Hd & axes & Hh & Hl & Hax & HJ). cbv zeta in HJ.
  destruct HJ as [Hlev ->]. set (nax := map (norm_axis (rank x)) axes) in *. set (J := num_levels _ _ _) in *.
  pose proof (good_axes_ok _ _ Hax) as Hg. fold nax in Hg.
  exists axes. eexists. split; [exact Hh|]. split; [apply (waverec2_wavedec2_spec w m L J h axes x); assumption|].
  fold nax. unfold wavedec2_spec. cbn [pc_items List.length]. rewrite map_length, rev_length, seq_length. cbv zeta.
  destruct J as [|J'].
  - split; [apply agrees_refl|]. cbn [Nat.eqb]. rewrite map_id, upds_gather. reflexivity.
  - split; [apply ext_even_agrees; assumption|]. cbn [Nat.eqb]. apply shp_ext_even.
Qed.

Lemma wavedec3_zero_items x w m L level h axes c : wf x -> is_dtype_supported (tdtype x) = true ->
  hint_axes h 3 = Some axes -> List.length axes = 3 -> axes_ok (rank x) axes ->
  List.length (dec_lo w) = L -> List.length (dec_hi w) = L -> 2 <= L -> Nat.even L = true ->
  num_levels level L (gather (map (norm_axis (rank x)) axes) 0 (shp x)) = 0 ->
  wavedec3 x w (Some (mode_name m)) level h = Ok c -> List.length (pc_items c) = 1.
Proof.
  intros Hw Hd Hh Hl Hax H1 H2 HL He E H. set (nax := map (norm_axis (rank x)) axes) in *.
    unfold wavedec3 in H. destruct (preprocess_deconstruction_ok x w 3 h axes L) as (filt & Hf & Hp); auto; try lia. rewrite Hp in H. cbn [rbind] in H.
    fold nax in H.
    assert (Hlv : exists lev, match level with Some l => Ok l
     | None => let* mm := dwtn_max_level [dim_last (unsqueeze (pre_t nax x) 1) 1; dim_last (unsqueeze (pre_t nax x) 1) 2; dim_last (unsqueeze (pre_t nax x) 1) 3] (get_len w) in Ok (Z.of_nat mm) end = Ok lev /\ Z.to_nat lev = 0).
    { destruct level as [z|]; cbn [num_levels] in E; [exists z; auto|]. unfold get_len. rewrite H1, dwtn_max_level_val by exact HL. cbn [rbind].
      eexists. split; [reflexivity|]. rewrite Nat2Z.id. etransitivity; [|exact E].
      assert (Hn : List.length nax = 3) by (unfold nax; rewrite map_length; exact Hl).
      destruct nax as [|a [|b [|c0 [|]]]]; try discriminate. exact (num_levels_perm3 None L _ _ _). }
    destruct Hlv as (lev & Hlv & Hz). rewrite Hlv in H. cbn [rbind] in H. unfold range_level in H. rewrite Hz in H. cbn [wavedec3_loop rbind rev] in H.
    unfold postprocess_coeffs in H. cbn [Nat.leb] in H. apply rbind_ok in H as (ax & _ & H). apply rbind_ok in H as (c1 & Hc1 & H).
    apply rbind_ok in H as (dax & _ & H).
    assert (G : forall (b b' : bool) (v v' : tensor K) f (cc : pycoeffs K), coeff_tree_map (mkPC b [PT v]) f = Ok cc -> exists b2 v2, cc = mkPC b2 [PT v2]).
    { intros b b' v v' f cc Hcc. unfold coeff_tree_map in Hcc. cbn [pc_items rmap rbind] in Hcc. destruct (f v) as [fv|]; [|discriminate]. cbn [rbind] in Hcc. apply ok_inj in Hcc. subst cc. eauto. }
    assert (Hc1' : exists b2 v2, c1 = mkPC b2 [PT v2]).
    { destruct (Nat.ltb _ 3); [discriminate|]. destruct (Nat.eqb _ 3); [eapply (G _ true _ x), Hc1|]. destruct (Nat.ltb _ _); [eapply (G _ true _ x), Hc1|].
      apply ok_inj in Hc1. subst c1. eauto. }
    destruct Hc1' as (b2 & v2 & ->). destruct (list_eqb _ _ _).
    - apply ok_inj in H. subst c. reflexivity.
    - apply (G _ true _ x) in H as (? & ? & ->). reflexivity.
Qed.

(** ** C15 *)
Theorem C15_perfect_reconstruction_3d x w m L level h c :
  cancel2 K -> pr_bank (dec_lo w) (dec_hi w) (rec_lo w) (rec_hi w) L -> wf x ->
  wavedec3 x w (Some (mode_name m)) level h = Ok c ->
  2 <= List.length (pc_items c) ->      (* at least one level *)
  exists axes y, hint_axes h 3 = Some axes /\ waverec3 c w h = Ok y /\ agrees_on x y /\
    let nax := map (norm_axis (rank x)) axes in
    shp y = upds nax (map (fun n => n + n mod 2) (gather nax 0 (shp x))) (shp x).
Proof.
  intros Hc Hpr Hw H Hlen. pose proof (pr_len _ _ _ _ _ Hpr) as (H1 & H2 & H3 & H4). pose proof (pr_two _ _ _ _ _ Hpr) as HL.
  pose proof (pr_even _ _ _ _ _ Hpr) as He.
  destruct (wavedec3_result x w m L level h c Hw H1 H2 HL He H) as (Hd & axes & Hh & Hl & Hax & HJ). cbv zeta in HJ.
  set (nax := map (norm_axis (rank x)) axes) in *. set (J := num_levels _ _ _) in *.
  pose proof (good_axes_ok _ _ Hax) as Hg. fold nax in Hg.
  assert (HJ0 : 0 < J).
  { destruct (Nat.eq_0_gt_0_cases J) as [E|]; [|assumption]. exfalso.
    pose proof (wavedec3_zero_items x w m L level h axes c Hw Hd Hh Hl Hax H1 H2 HL He E H). lia. }
  destruct (HJ HJ0) as [Hlev ->].
  exists axes. eexists. split; [exact Hh|]. split; [apply (waverec3_wavedec3_spec w m L J h axes x); assumption|].
  fold nax. destruct J as [|J']; [lia|]. split; [apply ext_even_agrees; assumption|]. apply shp_ext_even.
Qed.

(** ** C14: the 2d DWT formula, entrywise.  E = boundary extension along both transformed axes *)
Definition ext2 (m : mode) (n1 n2 : nat) (X : nat -> nat -> K) (z1 z2 : Z) : K :=
  match ext_idx m n1 z1, ext_idx m n2 z2 with Some i, Some j => X i j | _, _ => kzero end.
Definition dwt2_at (m : mode) (L : nat) (f g : list K) (a1 a2 : nat) (x : tensor K) (idx : list nat) : K :=
  sumf L (fun i => sumf L (fun j => kmul (kmul (nth i f kzero) (nth j g kzero))
    (ext2 m (nth a1 (shp x) 0) (nth a2 (shp x) 0) (fun p q => get x (updn a1 p (updn a2 q idx)))
       (2 * Z.of_nat (nth a1 idx 0%nat) + 1 - Z.of_nat i) (2 * Z.of_nat (nth a2 idx 0%nat) + 1 - Z.of_nat j)))).

Lemma dwt2_entry f g m L a1 a2 x idx : List.length f = L -> List.length g = L ->
  valid idx (shp (dwt_axes [f; g] m [a1; a2] x)) -> get (dwt_axes [f; g] m [a1; a2] x) idx = dwt2_at m L f g a1 a2 x idx.
Proof.
  intros Hf Hg Hv. unfold dwt_axes, along_axes in *. rewrite shp_make in Hv. rewrite get_make by exact Hv.
  unfold dwt_op, dwt2_at. cbn [map sumI]. rewrite Hf, Hg. apply sumf_ext. intros i Hi. apply sumf_ext. intros j Hj.
  cbn [gather map taps map2]. unfold ext_get, ext2. cbn [ext_idxs].
  destruct (ext_idx m (nth a1 (shp x) 0) _) as [p|]; [|ring]. destruct (ext_idx m (nth a2 (shp x) 0) _) as [q|]; cbn [upds]; ring.
Qed.

Theorem C14_wavedec2_is_dwt2 x w m L level h c :
  wf x -> List.length (dec_lo w) = L -> List.length (dec_hi w) = L -> 2 <= L -> Nat.even L = true ->
  wavedec2 x w (Some (mode_name m)) level h = Ok c ->
  exists ax1 ax2 (J : nat) (A H V D : nat -> tensor K),
    hint_axes h 2 = Some [ax1; ax2] /\
    let a1 := norm_axis (rank x) ax1 in let a2 := norm_axis (rank x) ax2 in
    let lo := dec_lo w in let hi := dec_hi w in
    A 0 = x /\
    pc_items c = PT (A J) :: map (fun j => PTup [H j; V j; D j]) (rev (seq 1 J)) /\
    forall j, j < J ->
      (* sizes: floor((n+L-1)/2) on the two axes *)
      (forall T, T = A \/ T = H \/ T = V \/ T = D ->
         shp (T (S j)) = updn a1 ((nth a1 (shp (A j)) 0 + L - 1) / 2) (updn a2 ((nth a2 (shp (A j)) 0 + L - 1) / 2) (shp (A j)))) /\
      forall idx, valid idx (shp (A (S j))) ->
        get (A (S j)) idx = dwt2_at m L lo lo a1 a2 (A j) idx /\
        get (H (S j)) idx = dwt2_at m L hi lo a1 a2 (A j) idx /\
        get (V (S j)) idx = dwt2_at m L lo hi a1 a2 (A j) idx /\
        get (D (S j)) idx = dwt2_at m L hi hi a1 a2 (A j) idx.
Proof.
  intros Hw H1 H2 HL He Hok.
  destruct (wavedec2_result x w m L level h c Hw H1 H2 HL He Hok) as (Hd & axes & Hh & Hl & Hax & HJ). cbv zeta in HJ.
  destruct axes as [|ax1 [|ax2 [|]]]; try discriminate. destruct HJ as [Hlev ->].
  set (nax := map (norm_axis (rank x)) [ax1; ax2]) in *. set (J := num_levels _ _ _) in *.
  exists ax1, ax2, J, (fun j => approx (dec_lo w) m nax j x), (fun j => detail (dec_lo w) [dec_hi w; dec_lo w] m nax j x),
    (fun j => detail (dec_lo w) [dec_lo w; dec_hi w] m nax j x), (fun j => detail (dec_lo w) [dec_hi w; dec_hi w] m nax j x).
  split; [exact Hh|]. cbv zeta. split; [reflexivity|]. split; [reflexivity|].
  intros j Hj. set (xj := approx (dec_lo w) m nax j x).
  assert (Hsh : forall f g, List.length f = L -> List.length g = L ->
     shp (dwt_axes [f; g] m nax xj) = updn (norm_axis (rank x) ax1) ((nth (norm_axis (rank x) ax1) (shp xj) 0 + L - 1) / 2)
       (updn (norm_axis (rank x) ax2) ((nth (norm_axis (rank x) ax2) (shp xj) 0 + L - 1) / 2) (shp xj))).
  { intros f g Hf Hg. unfold dwt_axes. rewrite shp_along. cbn [nax map gather map2 upds]. rewrite Hf, Hg. reflexivity. }
  split.
  - intros T [->|[->|[->| ->]]]; unfold detail; rewrite ?approx_S; replace (S j - 1) with j by lia; fold xj; apply Hsh; assumption.
  - intros idx Hv. rewrite approx_S in Hv |- *. fold xj in Hv |- *. cbn [nax map List.length repeat] in Hv |- *. fold nax in Hv |- *.
    unfold detail. replace (S j - 1) with j by lia. fold xj.
    assert (Hv' : forall f g, List.length f = L -> List.length g = L -> valid idx (shp (dwt_axes [f; g] m nax xj))).
    { intros f g Hf Hg. rewrite Hsh by assumption. rewrite Hsh in Hv by assumption. exact Hv. }
    repeat split; apply dwt2_entry; auto; apply Hv'; assumption.
Qed.

(** ** C16: every key names the filters *)
Definition ext3 (m : mode) (n1 n2 n3 : nat) (X : nat -> nat -> nat -> K) (z1 z2 z3 : Z) : K :=
  match ext_idx m n1 z1, ext_idx m n2 z2, ext_idx m n3 z3 with Some i, Some j, Some k => X i j k | _, _, _ => kzero end.
Definition dwt3_at (m : mode) (L : nat) (f g e : list K) (a1 a2 a3 : nat) (x : tensor K) (idx : list nat) : K :=
  sumf L (fun i => sumf L (fun j => sumf L (fun k => kmul (kmul (kmul (nth i f kzero) (nth j g kzero)) (nth k e kzero))
    (ext3 m (nth a1 (shp x) 0) (nth a2 (shp x) 0) (nth a3 (shp x) 0) (fun p q r => get x (updn a1 p (updn a2 q (updn a3 r idx))))
       (2 * Z.of_nat (nth a1 idx 0%nat) + 1 - Z.of_nat i) (2 * Z.of_nat (nth a2 idx 0%nat) + 1 - Z.of_nat j)
       (2 * Z.of_nat (nth a3 idx 0%nat) + 1 - Z.of_nat k))))).
Lemma dwt3_entry f g e m L a1 a2 a3 x idx : List.length f = L -> List.length g = L -> List.length e = L ->
  valid idx (shp (dwt_axes [f; g; e] m [a1; a2; a3] x)) -> get (dwt_axes [f; g; e] m [a1; a2; a3] x) idx = dwt3_at m L f g e a1 a2 a3 x idx.
Proof.
  intros Hf Hg Hee Hv. unfold dwt_axes, along_axes in *. rewrite shp_make in Hv. rewrite get_make by exact Hv.
  unfold dwt_op, dwt3_at. cbn [map sumI]. rewrite Hf, Hg, Hee. apply sumf_ext. intros i Hi. apply sumf_ext. intros j Hj. apply sumf_ext. intros k Hk.
  cbn [gather map taps map2]. unfold ext_get, ext3. cbn [ext_idxs].
  destruct (ext_idx m (nth a1 (shp x) 0) _) as [p|]; [|ring]. destruct (ext_idx m (nth a2 (shp x) 0) _) as [q|]; [|ring].
  destruct (ext_idx m (nth a3 (shp x) 0) _) as [r|]; cbn [upds]; ring.
Qed.

(** D b1 b2 b3: true = letter d = high-pass filter *)
Definition kpass (b : bool) (w : wavelet K) : list K := if b then dec_hi w else dec_lo w.
Theorem C16_wavedec3_keys x w m L level h c :
  wf x -> List.length (dec_lo w) = L -> List.length (dec_hi w) = L -> 2 <= L -> Nat.even L = true ->
  wavedec3 x w (Some (mode_name m)) level h = Ok c ->
  exists ax1 ax2 ax3, hint_axes h 3 = Some [ax1; ax2; ax3] /\
    let a1 := norm_axis (rank x) ax1 in let a2 := norm_axis (rank x) ax2 in let a3 := norm_axis (rank x) ax3 in
    let J := num_levels level L [nth a1 (shp x) 0; nth a2 (shp x) 0; nth a3 (shp x) 0] in
    0 < J ->
    exists (A : nat -> tensor K) (D : nat -> bool -> bool -> bool -> tensor K),
    A 0 = x /\
    pc_items c = PT (A J) :: map (fun j => PDict
       [("aad", D j false false true); ("ada", D j false true false); ("add", D j false true true); ("daa", D j true false false);
        ("dad", D j true false true); ("dda", D j true true false); ("ddd", D j true true true)]%string) (rev (seq 1 J)) /\
    forall j, j < J ->
      A (S j) = D (S j) false false false /\
      forall b1 b2 b3,
        shp (D (S j) b1 b2 b3) = updn a1 ((nth a1 (shp (A j)) 0 + L - 1) / 2) (updn a2 ((nth a2 (shp (A j)) 0 + L - 1) / 2)
           (updn a3 ((nth a3 (shp (A j)) 0 + L - 1) / 2) (shp (A j)))) /\
        forall idx, valid idx (shp (D (S j) b1 b2 b3)) ->
          get (D (S j) b1 b2 b3) idx = dwt3_at m L (kpass b1 w) (kpass b2 w) (kpass b3 w) a1 a2 a3 (A j) idx.
Proof.
  intros Hw H1 H2 HL He Hok.
  destruct (wavedec3_result x w m L level h c Hw H1 H2 HL He Hok) as (Hd & axes & Hh & Hl & Hax & HJ). cbv zeta in HJ.
  destruct axes as [|ax1 [|ax2 [|ax3 [|]]]]; try discriminate. exists ax1, ax2, ax3. split; [exact Hh|]. cbv zeta.
  set (nax := map (norm_axis (rank x)) [ax1; ax2; ax3]) in *. intros HJ0. cbn [nax map gather] in HJ. fold nax in HJ.
  set (J := num_levels _ _ _) in *. destruct (HJ HJ0) as [Hlev ->].
  assert (Hkl : forall b, List.length (kpass b w) = L) by (intros []; assumption).
  exists (fun j => approx (dec_lo w) m nax j x), (fun j b1 b2 b3 => detail (dec_lo w) [kpass b1 w; kpass b2 w; kpass b3 w] m nax j x).
  split; [reflexivity|]. split; [reflexivity|]. intros j Hj. set (xj := approx (dec_lo w) m nax j x).
  assert (Hdet : forall b1 b2 b3, detail (dec_lo w) [kpass b1 w; kpass b2 w; kpass b3 w] m nax (S j) x = dwt_axes [kpass b1 w; kpass b2 w; kpass b3 w] m nax xj).
  { intros. unfold detail. replace (S j - 1) with j by lia. reflexivity. }
  split; [rewrite Hdet, approx_S; reflexivity|]. intros b1 b2 b3. rewrite Hdet. split.
  - unfold dwt_axes. rewrite shp_along. cbn [nax map gather map2 upds]. rewrite !Hkl. reflexivity.
  - intros idx Hv. apply dwt3_entry; auto.
Qed.

(** which explicit levels wavedec2/wavedec3 accept: those for which every axis is long enough at every level *)
Theorem C08_which_levels_2d x w m L level h axes : wf x -> is_dtype_supported (tdtype x) = true ->
  hint_axes h 2 = Some axes -> List.length axes = 2 -> axes_ok (rank x) axes ->
  List.length (dec_lo w) = L -> List.length (dec_hi w) = L -> 2 <= L -> Nat.even L = true ->
  let ns := gather (map (norm_axis (rank x)) axes) 0 (shp x) in
  Forall (fun n => 0 < n) ns ->
  let ok := forall j n, j < num_levels level L ns -> In n ns -> admissible m L (len_after L j n) in
  (ok -> exists c, wavedec2 x w (Some (mode_name m)) level h = Ok c) /\
  (~ ok -> wavedec2 x w (Some (mode_name m)) level h = Raise RuntimeError).
Proof.
  intros Hw Hd Hh Hla Hax H1 H2 HL He ns Hpos ok.
  pose proof (wavedec2_cases x w m L level h axes Hw Hd Hh Hla Hax H1 H2 HL He) as Hc. cbv zeta in Hc. fold ns in Hc.
  assert (Hiff : ok <-> levels_all m L (num_levels level L ns) ns).
  { unfold ok, levels_all. rewrite Forall_forall. split; [intros H n Hn j Hj; apply H; assumption|intros H j n Hj Hn; apply (H n Hn j Hj)]. }
  destruct (wavedec2 x w _ level h) as [c|e]; [split; [eauto|tauto]|]. destruct Hc as [Hn Hr]. split; [tauto|].
  intros _. rewrite (Hr Hpos). reflexivity.
Qed.
Theorem C08_which_levels_3d x w m L level h axes : wf x -> is_dtype_supported (tdtype x) = true ->
  hint_axes h 3 = Some axes -> List.length axes = 3 -> axes_ok (rank x) axes ->
  List.length (dec_lo w) = L -> List.length (dec_hi w) = L -> 2 <= L -> Nat.even L = true ->
  let ns := gather (map (norm_axis (rank x)) axes) 0 (shp x) in
  Forall (fun n => 0 < n) ns -> 0 < num_levels level L ns ->
  let ok := forall j n, j < num_levels level L ns -> In n ns -> admissible m L (len_after L j n) in
  (ok -> exists c, wavedec3 x w (Some (mode_name m)) level h = Ok c) /\
  (~ ok -> wavedec3 x w (Some (mode_name m)) level h = Raise RuntimeError).
Proof.
  intros Hw Hd Hh Hla Hax H1 H2 HL He ns Hpos HJ ok.
  pose proof (wavedec3_cases x w m L level h axes Hw Hd Hh Hla Hax H1 H2 HL He) as Hc. cbv zeta in Hc. fold ns in Hc. specialize (Hc HJ).
  assert (Hiff : ok <-> levels_all m L (num_levels level L ns) ns).
  { unfold ok, levels_all. rewrite Forall_forall. split; [intros H n Hn j Hj; apply H; assumption|intros H j n Hj Hn; apply (H n Hn j Hj)]. }
  destruct (wavedec3 x w _ level h) as [c|e]; [split; [eauto|tauto]|]. destruct Hc as [Hn Hr]. split; [tauto|].
  intros _. rewrite (Hr Hpos). reflexivity.
Qed.
(** the default number of levels always works *)
Theorem C07_default_level_2d x w m L h axes : wf x -> is_dtype_supported (tdtype x) = true ->
  hint_axes h 2 = Some axes -> List.length axes = 2 -> axes_ok (rank x) axes ->
  List.length (dec_lo w) = L -> List.length (dec_hi w) = L -> 2 <= L -> Nat.even L = true ->
  Forall (fun n => 0 < n) (gather (map (norm_axis (rank x)) axes) 0 (shp x)) ->
  exists c, wavedec2 x w (Some (mode_name m)) None h = Ok c.
Proof.
  intros Hw Hd Hh Hla Hax H1 H2 HL He Hpos.
  pose proof (wavedec2_cases x w m L None h axes Hw Hd Hh Hla Hax H1 H2 HL He) as Hc. cbv zeta in Hc.
  destruct (wavedec2 x w _ None h) as [c|e]; [eauto|]. exfalso. apply (proj1 Hc). apply num_levels_default_ok; assumption.
Qed.

(** ** C17 (2d) *)
Theorem C17_zero_level_2d x w m L level h axes : wf x -> is_dtype_supported (tdtype x) = true ->
  hint_axes h 2 = Some axes -> List.length axes = 2 -> axes_ok (rank x) axes ->
  List.length (dec_lo w) = L -> List.length (dec_hi w) = L -> 2 <= L -> Nat.even L = true ->
  let ns := gather (map (norm_axis (rank x)) axes) 0 (shp x) in
  match level with Some z => (z <= 0)%Z | None => exists n, In n ns /\ n < 2 * (L - 1) end ->
  wavedec2 x w (Some (mode_name m)) level h = Ok (mkPC false [PT x]).
Proof.
  intros Hw Hd Hh Hla Hax H1 H2 HL He ns Hz.
  pose proof (wavedec2_cases x w m L level h axes Hw Hd Hh Hla Hax H1 H2 HL He) as Hc. cbv zeta in Hc. fold ns in Hc.
  assert (HJ : num_levels level L ns = 0).
  { destruct level as [z|]; cbn [num_levels]; [lia|]. destruct Hz as (n & Hn & Hlt).
    assert (Hd0 : default_level L n = 0).
    { unfold default_level. destruct (Nat.ltb_spec n (L - 1)); [reflexivity|]. replace (n / (L - 1)) with 1; [reflexivity|]. apply (Nat.div_unique n (L - 1) 1 (n - (L - 1))); lia. }
    assert (G : forall l b, fold_left Nat.min l b <= b /\ forall z, In z l -> fold_left Nat.min l b <= z).
    { induction l as [|c l IH]; intros b; cbn; [split; [lia|intros z []]|]. destruct (IH (Nat.min b c)) as [I1 I2].
      split; [lia|]. intros z [<-|Hzz]; [lia|]. apply I2. exact Hzz. }
    destruct ns as [|a r]; [destruct Hn|]. destruct (G (map (default_level L) r) (default_level L a)) as [G1 G2].
    destruct Hn as [->|Hn]; [lia|]. specialize (G2 (default_level L n) (in_map _ _ _ Hn)). lia. }
  rewrite HJ in Hc. destruct (wavedec2 x w _ level h) as [c|e].
  - destruct Hc as [_ ->]. reflexivity.
  - exfalso. apply (proj1 Hc). unfold levels_all. apply Forall_forall. intros n _ j Hj. lia.
Qed.

End P2.

(** ** Concrete instances *)
Definition dims (v : pyval ZK) : list (list nat) := map (fun t => shp t) (pv_tensors v).
Definition shapes (r : result (pycoeffs ZK)) : list (list (list nat)) := match r with Ok c => map dims (pc_items c) | Raise _ => [] end.
Example ex_wavedec2 : shapes (wavedec2 (exT [5; 2; 6]) exW4 (Some "reflect"%string) (Some 2%Z) (AxSeq [0%Z; (-1)%Z]))
  = [[[3; 2; 3]]; [[3; 2; 3]; [3; 2; 3]; [3; 2; 3]]; [[4; 2; 4]; [4; 2; 4]; [4; 2; 4]]].
Proof. vm_compute. reflexivity. Qed.
Example ex_C13 : match wavedec2 (exT [5; 2; 6]) exW4 (Some "symmetric"%string) (Some 2%Z) (AxSeq [0%Z; (-1)%Z]) with
  | Ok c => match waverec2 c exW4 (AxSeq [0%Z; (-1)%Z]) with
            | Ok y => shp y = [6; 2; 6] /\ firstn 60 (dat y) = dat (exT [5; 2; 6])
            | Raise _ => False end
  | Raise _ => False end.
Proof. vm_compute. repeat split. Qed.
Example ex_C15 : match wavedec3 (exT [3; 4; 2]) exW2 (Some "periodic"%string) (Some 1%Z) AxNone with
  | Ok c => List.length (pc_items c) = 2 /\
            match waverec3 c exW2 AxNone with
            | Ok y => shp y = [4; 4; 2] /\ firstn 24 (dat y) = dat (exT [3; 4; 2])
            | Raise _ => False end
  | Raise _ => False end.
Proof. vm_compute. repeat split. Qed.

(** Finding: wavedec3 with zero levels does not return the input: a rank-3 tensor comes back with
    a spurious leading axis, a rank-4 (batched) tensor with a spurious channel axis. *)
Theorem C17_wavedec3_zero_level_refuted :
  shapes (wavedec3 (exT [2; 2; 2]) exW2 (Some (mode_name Mreflect)) (Some 0%Z) AxNone) = [[[1; 2; 2; 2]]] /\
  shapes (wavedec3 (exT [3; 2; 2; 2]) exW2 (Some (mode_name Mreflect)) (Some 0%Z) AxNone) = [[[3; 1; 2; 2; 2]]].
Proof. vm_compute. split; reflexivity. Qed.
(** Rejections: too few dimensions, a repeated axis (ValueError), and one dimension named twice with different signs (a RuntimeError of permute). *)
Example ex_C10 : wavedec2 (exT [4]) exW2 None None AxNone = Raise ValueError /\
  wavedec2 (exT [4; 4]) exW2 None None (AxSeq [0%Z; 0%Z]) = Raise ValueError /\
  wavedec2 (exT [4; 4]) exW2 None None (AxSeq [0%Z; (-2)%Z]) = Raise RuntimeError.
Proof. vm_compute. repeat split. Qed.
