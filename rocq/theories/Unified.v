(** The five padded analysis functions under one name, so that a property can be stated once for all of them. *)
From Coq Require Import List Arith ZArith Lia Bool String.
From Verif Require Import Base Sums Tensor TensorFacts Util Perm Plumb Accept Spec Conv1 PadFacts CoreFacts Analysis AnalysisInv PRKernel Synthesis Filters Wave1 Wave1Inv Rec1 Rec1Inv Lin Props1 Conv2 Conv3 Spec2 WaveN RecN Props2 Sep SpecSep SepFacts PropsSep.
Import ListNotations.

(** which function is called, and its axis argument *)
Inductive transform :=
| Twavedec (axis : Z) | Twavedec2 (axes : axishint) | Twavedec3 (axes : axishint)
| Tfswavedec2 (axes : axishint) | Tfswavedec3 (axes : axishint).

Section U.
Context {K : CRing}.
Implicit Types x y t : tensor K.
Implicit Types w : wavelet K.

(** wavedec, wavedec2, wavedec3, fswavedec2 or fswavedec3 (conv_transform.py:159-223, conv_transform_2.py:74-157,
    conv_transform_3.py:76-158, separable_conv_transform.py:187-278) *)
Definition analyse (T : transform) x w (mode : option string) (level : option Z) : result (pycoeffs K) :=
  match T with
  | Twavedec a => wavedec x w mode level a
  | Twavedec2 h => wavedec2 x w mode level h
  | Twavedec3 h => wavedec3 x w mode level h
  | Tfswavedec2 h => fswavedec2 x w mode level h
  | Tfswavedec3 h => fswavedec3 x w mode level h
  end.
(** number of transformed axes, axis argument *)
Definition tdim (T : transform) : nat :=
  match T with Twavedec _ => 1 | Twavedec2 _ | Tfswavedec2 _ => 2 | Twavedec3 _ | Tfswavedec3 _ => 3 end.
Definition thint (T : transform) : axishint :=
  match T with Twavedec a => AxInt a | Twavedec2 h | Tfswavedec2 h | Twavedec3 h | Tfswavedec3 h => h end.
(** the two corners in which the functions differ: wavedec3 without any level (C17) and the default level of the
    separable functions on an empty tensor (finding 17) *)
Definition is3 (T : transform) : bool := match T with Twavedec3 _ => true | _ => false end.
Definition isfs (T : transform) : bool := match T with Tfswavedec2 _ | Tfswavedec3 _ => true | _ => false end.

(** the detail coefficients of level j in the container of the function *)
Definition tdetails (T : transform) (lo hi : list K) (m : mode) (nax : list nat) (j : nat) x : pyval K :=
  match T with
  | Twavedec _ => PT (detail lo [hi] m nax j x)
  | Twavedec2 _ => details2 lo hi m nax j x
  | Twavedec3 _ => details3 lo hi m nax j x
  | Tfswavedec2 _ | Tfswavedec3 _ => PDict (detailsN lo hi m nax j x)
  end.
Definition tspec (T : transform) (lo hi : list K) (m : mode) (nax : list nat) (J : nat) x : pycoeffs K :=
  mkPC (match T with Twavedec _ => true | _ => false end)
    (PT (approx lo m nax J x) :: map (fun j => tdetails T lo hi m nax j x) (rev (seq 1 J))).

Lemma wavedec_spec_t a lo hi m nax J x : nax = [a] ->
  mkPC true (map PT (wavedec_spec lo hi m a J x)) = tspec (Twavedec 0) lo hi m nax J x.
Proof. intros ->. unfold wavedec_spec, tspec. cbn [map]. rewrite map_map. reflexivity. Qed.

Lemma lev_of_num level n L J : 2 <= L -> (lev_of level n L J <-> J = num_levels level L [n]).
Proof.
  intros HL. destruct level as [z|]; cbn [lev_of num_levels map fold_left]; [split; intros; congruence|].
  rewrite dwt_max_level_val by exact HL. split; [intros E; injection E as <-; reflexivity|intros ->; reflexivity].
Qed.

Theorem analyse_ok T x w m L level axes : wf x -> is_dtype_supported (tdtype x) = true ->
  hint_axes (thint T) (tdim T) = Some axes -> List.length axes = tdim T -> axes_ok (rank x) axes ->
  List.length (dec_lo w) = L -> List.length (dec_hi w) = L -> 2 <= L -> Nat.even L = true ->
  let nax := map (norm_axis (rank x)) axes in
  let ns := gather nax 0 (shp x) in
  let J := num_levels level L ns in
  (is3 T = true -> 0 < J) -> (isfs T = true -> level = None -> Forall (fun n => 0 < n) ns) ->
  levels_all m L J ns ->
  analyse T x w (Some (mode_name m)) level = Ok (tspec T (dec_lo w) (dec_hi w) m nax J x).
Proof.
  intros Hw Hd Hh Hl Hax H1 H2 HL He nax ns J H3 Hfs Hlev. destruct T as [a|h|h|h|h]; cbn [analyse thint tdim is3 isfs] in *.
  - cbn in Hh. injection Hh as <-. destruct Hax as [Hax _]. apply Forall_inv in Hax.
    rewrite (wavedec_ok x w m L J level a); auto.
    + f_equal. rewrite (wavedec_spec_t _ _ _ _ nax); reflexivity.
    + apply lev_of_num; auto.
    + apply Forall_inv in Hlev. exact Hlev.
  - pose proof (wavedec2_cases x w m L level h axes Hw Hd Hh Hl Hax H1 H2 HL He) as Hc. cbv zeta in Hc. fold nax ns J in Hc.
    destruct (wavedec2 _ _ _ _ _) as [c|e]; [destruct Hc as [_ ->]; reflexivity|tauto].
  - pose proof (wavedec3_cases x w m L level h axes Hw Hd Hh Hl Hax H1 H2 HL He) as Hc. cbv zeta in Hc. fold nax ns J in Hc. specialize (Hc (H3 eq_refl)).
    destruct (wavedec3 _ _ _ _ _) as [c|e]; [destruct Hc as [_ ->]; reflexivity|tauto].
  - pose proof (fswavedecn_cases x w 2 m L level h axes ltac:(lia) Hw Hd Hh Hl Hax H1 H2 HL He) as Hc. cbv zeta in Hc. fold nax ns J in Hc. specialize (Hc (Hfs eq_refl)).
    unfold fswavedec2. destruct (fswavedecn _ _ _ _ _ _) as [c|e]; [destruct Hc as [_ ->]; reflexivity|tauto].
  - pose proof (fswavedecn_cases x w 3 m L level h axes ltac:(lia) Hw Hd Hh Hl Hax H1 H2 HL He) as Hc. cbv zeta in Hc. fold nax ns J in Hc. specialize (Hc (Hfs eq_refl)).
    unfold fswavedec3. destruct (fswavedecn _ _ _ _ _ _) as [c|e]; [destruct Hc as [_ ->]; reflexivity|tauto].
Qed.

Theorem analyse_inv T x w m L level c : wf x ->
  List.length (dec_lo w) = L -> List.length (dec_hi w) = L -> 2 <= L -> Nat.even L = true ->
  (is3 T = true -> 2 <= List.length (pc_items c) \/ exists z, level = Some z /\ (0 < z)%Z) -> (isfs T = true -> level = None -> ~ In 0 (shp x)) ->
  analyse T x w (Some (mode_name m)) level = Ok c ->
  is_dtype_supported (tdtype x) = true /\ exists axes, hint_axes (thint T) (tdim T) = Some axes /\ List.length axes = tdim T /\ axes_ok (rank x) axes /\
  let nax := map (norm_axis (rank x)) axes in
  let ns := gather nax 0 (shp x) in
  let J := num_levels level L ns in
  (is3 T = true -> 0 < J) /\ (isfs T = true -> level = None -> Forall (fun n => 0 < n) ns) /\
  levels_all m L J ns /\ c = tspec T (dec_lo w) (dec_hi w) m nax J x.
Proof.
  intros Hw H1 H2 HL He H3 Hfs H. destruct T as [a|h|h|h|h]; cbn [analyse thint tdim is3 isfs] in *.
  - destruct (wavedec_inv x w m L level a c Hw H1 H2 HL He H) as (Hd & Hax & J & Hlev & Hok).
    split; [exact Hd|]. exists [a]. split; [reflexivity|]. split; [reflexivity|]. split; [apply axis_axes_ok; exact Hax|]. cbv zeta.
    split; [discriminate|]. split; [discriminate|]. cbn [map gather].
    pose proof Hlev as Hlev'. apply lev_of_num in Hlev'; [|exact HL]. rewrite <- Hlev'. split; [repeat constructor; exact Hok|].
    rewrite (wavedec_ok x w m L J level a) in H by auto. apply ok_inj in H. subst c. apply wavedec_spec_t. reflexivity.
  - destruct (wavedec2_result x w m L level h c Hw H1 H2 HL He H) as (Hd & axes & Hh & Hl & Hax & HJ). cbv zeta in HJ.
    split; [exact Hd|]. exists axes. repeat (split; [assumption|]). cbv zeta. split; [discriminate|]. split; [discriminate|]. exact HJ.
  - destruct (wavedec3_result x w m L level h c Hw H1 H2 HL He H) as (Hd & axes & Hh & Hl & Hax & HJ). cbv zeta in HJ.
    split; [exact Hd|]. exists axes. repeat (split; [assumption|]). cbv zeta.
    assert (HJ0 : 0 < num_levels level L (gather (map (norm_axis (rank x)) axes) 0 (shp x))).
    { destruct (H3 eq_refl) as [H3'|(z & -> & Hz)]; [|cbn [num_levels]; lia]. destruct (Nat.eq_0_gt_0_cases (num_levels level L (gather (map (norm_axis (rank x)) axes) 0 (shp x)))) as [E|E]; [|exact E]. exfalso.
      pose proof (wavedec3_zero_items x w m L level h axes c Hw Hd Hh Hl Hax H1 H2 HL He E H). lia. }
    split; [intros _; exact HJ0|]. split; [discriminate|]. apply HJ. exact HJ0.
  - destruct (fswavedecn_result x w 2 m L level h c ltac:(lia) Hw H1 H2 HL He (Hfs eq_refl) H) as (Hd & axes & Hh & Hl & Hax & HJ).
    split; [exact Hd|]. exists axes. repeat (split; [assumption|]). cbv zeta. split; [discriminate|]. split; [|exact HJ].
    intros _ E. apply pos_sizes; auto.
  - destruct (fswavedecn_result x w 3 m L level h c ltac:(lia) Hw H1 H2 HL He (Hfs eq_refl) H) as (Hd & axes & Hh & Hl & Hax & HJ).
    split; [exact Hd|]. exists axes. repeat (split; [assumption|]). cbv zeta. split; [discriminate|]. split; [|exact HJ].
    intros _ E. apply pos_sizes; auto.
Qed.
End U.
