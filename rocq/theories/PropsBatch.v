(** C70: batch independence of the stationary transforms, the packets, the boundary-wavelet transforms and the
    continuous transform: transforming one fibre on its own gives that fibre of the transform. *)
From Coq Require Import List Arith ZArith QArith Lia Bool String Ascii Ring.
From Coq Require Import ZifyNat ZifyBool.
From Verif Require Import Base Sums Tensor TensorFacts Util Perm Plumb Accept Spec Conv1 Conv2 PadFacts CoreFacts AnalysisInv Synthesis Filters Wave1 Wave1Inv Rec1 Props1 RecN Sep SepFacts Lin Swt SpecSwt SwtFacts SwtDec SwtRec PropsSwt Packets SpecPk PacketFacts PacketConv PropsPk PropsNd Sparse SparseFacts SpecMat SpecMatN SparseMM LinAlg Mat1 MatN MatOrth Boundary MatPre Mat1Facts Mat1Call Tags PropsMat1 MatNFacts MatNLoop MatNSep MatNNon MatNCall PropsMatN PropsMatN2 PropsMatNon EnergyN Surj PropsSurj Cwt SpecCwt CwtFacts PropsCwt PropsLin.
Import ListNotations.
Ltac Zify.zify_post_hook ::= Z.div_mod_to_equations.
Local Open Scope nat_scope.
Local Arguments Nat.div : simpl never.
Local Arguments Nat.modulo : simpl never.

Section PB.
Context {K : CRing}.
Add Ring Kring : (cr_th K).
Local Open Scope K_scope.
Implicit Types (t u x y : tensor K) (w : wavelet K).

Lemma pc_map_list (f : tensor K -> tensor K) (ts : list (tensor K)) : pc_map f (mkPC true (map PT ts)) = mkPC true (map PT (map f ts)).
Proof. unfold pc_map. cbn [pc_items pc_is_list]. f_equal. rewrite !map_map. apply map_ext. reflexivity. Qed.
Lemma shp_fibre nax idx x : shp (fibre nax idx x) = gather nax 0%nat (shp x).
Proof. reflexivity. Qed.

(** ** the stationary transform *)
Lemma fibre_gaxis f d ax idx x : (ax < rank x)%nat -> fib_ok [ax] idx (shp x) -> (0 < nth ax (shp x) 0)%nat ->
  fibre [ax] idx (gaxis f d ax x) = gaxis f d 0 (fibre [ax] idx x).
Proof.
  intros Ha Hf Hn. unfold gaxis. apply (fibre_along (fun s => s) (gop f d) [ax] idx x); auto; [apply good_axes1, Ha|]. cbn [gather map]. apply gop_ext, Hn.
Qed.
Lemma fibre_gapprox lo ax idx j : forall lvl x, wf x -> (ax < rank x)%nat -> fib_ok [ax] idx (shp x) -> (0 < nth ax (shp x) 0)%nat ->
  fibre [ax] idx (gapprox lo ax lvl j x) = gapprox lo 0 lvl j (fibre [ax] idx x).
Proof.
  induction j as [|j IH]; intros lvl x Hw Ha Hf Hn; [reflexivity|]. cbn [gapprox]. rewrite <- fibre_gaxis by assumption.
  destruct (gaxis_facts lo (2 ^ lvl) ax x Ha) as (A & B & C & D). apply IH; rewrite ?B, ?D; auto.
Qed.
Theorem C70_swt x w L level h axis c : swt_input x h axis -> even_bank w L -> swt x w level h = Ok c ->
  let ax := norm_axis (rank x) axis in
  forall idx, fib_ok [ax] idx (shp x) -> swt (fibre [ax] idx x) w level (AxInt (-1)%Z) = Ok (pc_map (fibre [ax] idx) c).
Proof.
  intros (Hx & Hdx & Hh & Hax & Hn) (H1 & H2 & HL & He) Ex ax idx Hf. pose proof (norm_axis_lt _ _ Hax) as Ha. fold ax in Ha, Hn.
  rewrite (swt_gen x w L _ level h axis Hx Hdx Hh Hax H1 H2 HL He Hn (lev_swt _ _)) in Ex. fold ax in Ex.
  apply ok_inj in Ex. subst c. rewrite pc_map_list.
  assert (Hr : rank (fibre [ax] idx x) = 1%nat) by apply rank_fibre.
  assert (Hz : norm_axis (rank (fibre [ax] idx x)) (-1)%Z = 0%nat) by (rewrite Hr; reflexivity).
  rewrite (swt_gen (fibre [ax] idx x) w L (levels_of level (nth ax (shp x) 0%nat)) level _ (-1)%Z); auto.
  - rewrite Hz. do 3 f_equal. unfold gspec. cbn [map]. rewrite fibre_gapprox by assumption. f_equal. rewrite map_map. apply map_ext. intros j.
    destruct (gapprox_facts (dec_lo w) ax j 0 x Hx Ha) as (F1 & F2 & F3 & F4). rewrite fibre_gaxis by (rewrite ?F2, ?F4; assumption). rewrite fibre_gapprox by assumption. reflexivity.
  - apply wf_fibre.
  - rewrite Hr. unfold axis_ok. lia.
  - rewrite Hz. cbn [fibre shp tmake gather map nth]. apply lev_swt.
Qed.

Lemma fibre_tlin nax idx a b x y : wf x -> wf y -> shp y = shp x -> good_axes (rank x) nax -> fib_ok nax idx (shp x) ->
  fibre nax idx (tlin a b x y) = tlin a b (fibre nax idx x) (fibre nax idx y).
Proof.
  intros Hx Hy Hs Hg Hf. assert (Hsf : shp (fibre nax idx y) = shp (fibre nax idx x)) by (rewrite !shp_fibre, Hs; reflexivity).
  apply t_ext; [apply wf_fibre|apply wf_tlin; [apply wf_fibre|apply wf_fibre|exact Hsf]|reflexivity|reflexivity|].
  intros is Hi. rewrite get_tlin by (try apply wf_fibre; exact Hsf). change (shp (fibre nax idx (tlin a b x y))) with (gather nax 0%nat (shp x)) in Hi.
  unfold fibre. cbn [tlin shp ttag]. rewrite !get_make by (rewrite ?Hs; exact Hi). apply get_tlin; assumption.
Qed.
Lemma fibre_circ f c d ax idx x : (ax < rank x)%nat -> fib_ok [ax] idx (shp x) -> (0 < nth ax (shp x) 0)%nat ->
  fibre [ax] idx (circ_axis f c d ax x) = circ_axis f c d 0 (fibre [ax] idx x).
Proof.
  intros Ha Hf Hn. rewrite !circ_axis_cop. apply (fibre_along (fun s => s) (cop f c d) [ax] idx x); auto; [apply good_axes1, Ha|]. cbn [gather map]. apply cop_ext, Hn.
Qed.
Lemma fibre_iswt_spec half rlo rhi ax idx his : forall lo : tensor K, wf lo -> (ax < rank lo)%nat -> fib_ok [ax] idx (shp lo) -> (0 < nth ax (shp lo) 0)%nat ->
  Forall (fun t => wf t /\ shp t = shp lo /\ ttag t = ttag lo) his ->
  fibre [ax] idx (iswt_spec half rlo rhi ax lo his) = iswt_spec half rlo rhi 0 (fibre [ax] idx lo) (map (fibre [ax] idx) his).
Proof.
  induction his as [|hi his IH]; intros lo W Ha Hf Hn F; [reflexivity|]. cbn [map iswt_spec]. rewrite map_length.
  inversion F as [|? ? (A1 & A2 & A3) F1]; subst.
  set (d := (2 ^ Z.of_nat (List.length his))%Z).
  destruct (circ_axis_facts rlo (Z.of_nat (List.length rlo / 2) - 1) d ax lo) as (C1 & C2 & C3). destruct (circ_axis_facts rhi (Z.of_nat (List.length rhi / 2) - 1) d ax hi) as (D1 & D2 & D3).
  assert (E : iswt_level half rlo rhi d 0 (fibre [ax] idx lo) (fibre [ax] idx hi) = fibre [ax] idx (iswt_level half rlo rhi d ax lo hi)).
  { unfold iswt_level. rewrite fibre_tlin; auto; try congruence.
    - rewrite !fibre_circ; auto; unfold rank; rewrite ?A2; auto.
    - unfold rank. rewrite C2. apply good_axes1, Ha. }
  rewrite E. assert (S : shp (iswt_level half rlo rhi d ax lo hi) = shp lo) by (unfold iswt_level; cbn [tlin shp]; exact C2).
  assert (T : ttag (iswt_level half rlo rhi d ax lo hi) = ttag lo) by (unfold iswt_level; cbn [tlin ttag]; exact C3).
  apply IH; unfold rank; rewrite ?S, ?T; auto. unfold iswt_level. apply wf_tlin; auto. congruence.
Qed.
Theorem C70_iswt half (lo : tensor K) his w L h axis : swt_input lo h axis -> Forall (fun t => wf t /\ shp t = shp lo /\ ttag t = ttag lo) his ->
  List.length (rec_lo w) = L -> List.length (rec_hi w) = L -> (2 <= L)%nat -> Nat.even L = true ->
  let ax := norm_axis (rank lo) axis in
  (L = 2 \/ nth ax (shp lo) 0 mod 2 ^ (List.length his - 1) = 0)%nat ->
  exists y, iswt half (map PT (lo :: his)) w h = Ok y /\
    forall idx, fib_ok [ax] idx (shp lo) -> iswt half (map PT (map (fibre [ax] idx) (lo :: his))) w (AxInt (-1)%Z) = Ok (fibre [ax] idx y).
Proof.
  intros Hi F H1 H2 HL He ax Hdiv. pose proof Hi as (W & Hd & Hh & Hax & Hn). pose proof (norm_axis_lt _ _ Hax) as Ha. fold ax in Ha, Hn.
  eexists. split; [apply (C24_iswt_formula half lo his w L h axis); auto|]. fold ax. intros idx Hf.
  assert (Hr : rank (fibre [ax] idx lo) = 1%nat) by apply rank_fibre.
  assert (Hz : norm_axis (rank (fibre [ax] idx lo)) (-1)%Z = 0%nat) by (rewrite Hr; reflexivity).
  cbn [map]. rewrite <- map_cons. rewrite (C24_iswt_formula half (fibre [ax] idx lo) (map (fibre [ax] idx) his) w L _ (-1)%Z); auto.
  - rewrite Hz. f_equal. symmetry. apply fibre_iswt_spec; auto.
  - split; [apply wf_fibre|]. split; [exact Hd|]. split; [reflexivity|]. split; [rewrite Hr; unfold axis_ok; lia|]. rewrite Hz. cbn. exact Hn.
  - rewrite Forall_forall in *. intros t Ht. apply in_map_iff in Ht as (u & <- & Hu). destruct (F u Hu) as (A & B & C). split; [apply wf_fibre|]. split; [rewrite !shp_fibre, B; reflexivity|exact C].
  - rewrite Hz, map_length. cbn. exact Hdiv.
Qed.

(** ** packets *)
Lemma child_map (f : tensor K -> tensor K) letters : forall l c u, child letters l c = Some u -> child letters (map f l) c = Some (f u).
Proof.
  induction letters as [|q letters IH]; intros [|t l] c u E; try discriminate. cbn [child map] in *. destruct (Ascii.eqb q c); [congruence|]. apply IH, E.
Qed.
Lemma child_in letters : forall (l : list (tensor K)) c u, child letters l c = Some u -> In u l.
Proof.
  induction letters as [|q letters IH]; intros [|t l] c u E; try discriminate. cbn [child] in *. destruct (Ascii.eqb q c); [left; congruence|]. right. eapply IH, E.
Qed.
Lemma node_fibre (P : tensor K -> Prop) (F : tensor K -> tensor K) (f f' : tensor K -> result (list (tensor K))) letters x :
  P x -> (forall t ch, P t -> f t = Ok ch -> Forall P ch /\ f' (F t) = Ok (map F ch)) ->
  forall p v, node_at f letters x p = Ok v -> node_at f' letters (F x) p = Ok (F v) /\ P v.
Proof.
  intros Px Hs. unfold node_at. intros p. induction (rev p) as [|c up IH]; intros v H; cbn [node_up] in *; [apply ok_inj in H; subst; auto|].
  destruct (existsb (Ascii.eqb c) letters); [|discriminate]. apply rbind_ok in H as (u & Hu & H). apply rbind_ok in H as (ch & Hch & H).
  destruct (IH u Hu) as (E & Pu). rewrite E. cbn [rbind]. destruct (Hs u ch Pu Hch) as (Fc & El). rewrite El. cbn [rbind].
  destruct (child letters ch c) as [g|] eqn:Eg; [|discriminate]. apply ok_inj in H. subst g. rewrite (child_map F letters ch c v Eg). split; [reflexivity|].
  rewrite Forall_forall in Fc. apply Fc. exact (child_in _ _ _ _ Eg).
Qed.
(** the node of every path of the packet tree of a fibre is that fibre of the node *)
Theorem C70_packets_1d w m L axis x p v : even_bank w L -> wf x -> axis_ok (rank x) axis ->
  node_at (dec1 w (mode_name m) axis) ["a"; "d"]%char x p = Ok v ->
  let ax := norm_axis (rank x) axis in
  forall idx, fib_ok [ax] idx (shp x) -> node_at (dec1 w (mode_name m) (-1)%Z) ["a"; "d"]%char (fibre [ax] idx x) p = Ok (fibre [ax] idx v).
Proof.
  intros Hb Wx Hax H ax idx Hf. pose proof (norm_axis_lt _ _ Hax) as Ha. fold ax in Ha.
  apply (node_fibre (fun t => wf t /\ rank t = rank x /\ fib_ok [ax] idx (shp t)) (fibre [ax] idx) (dec1 w (mode_name m) axis)); auto.
  intros t ch (Wt & Rt & Ft) E. destruct (dec1_inv w m L axis t ch Hb Wt E) as (Hd & Hat & Had & ->). rewrite Rt in *. fold ax in Had |- *.
  assert (Hrt : (ax < rank t)%nat) by lia. pose proof (good_axes1 _ _ Hrt) as Hg. destruct Hb as (B1 & B2 & B3 & B4).
  assert (Q : forall fs, wf (dwt_axes fs m [ax] t) /\ rank (dwt_axes fs m [ax] t) = rank x /\ fib_ok [ax] idx (shp (dwt_axes fs m [ax] t))).
  { intros fs. split; [apply wf_make|]. split; [unfold dwt_axes; rewrite rank_along; exact Rt|]. unfold dwt_axes. rewrite shp_along. apply fib_ok_shape, Ft. }
  split; [constructor; [apply Q|constructor; [apply Q|constructor]]|].
  assert (Hr1 : rank (fibre [ax] idx t) = 1%nat) by apply rank_fibre.
  assert (Hz : norm_axis (rank (fibre [ax] idx t)) (-1)%Z = 0%nat) by (rewrite Hr1; reflexivity).
  rewrite (dec1_ok w m L (-1)%Z (fibre [ax] idx t)); auto.
  - rewrite Hz. cbn [map]. rewrite !(fibre_dwt _ m L [ax] idx t Hg Ft B3); auto; try reflexivity; repeat constructor; auto.
  - repeat split; auto.
  - apply wf_fibre.
  - rewrite Hr1. unfold axis_ok. lia.
Qed.
Theorem C70_packets_2d w m L axes separable x p v : even_bank w L -> wf x -> List.length axes = 2%nat -> axes_ok (rank x) axes ->
  node_at (dec2 w (mode_name m) axes separable) ["a"; "h"; "v"; "d"]%char x p = Ok v ->
  let nax := map (norm_axis (rank x)) axes in
  forall idx, fib_ok nax idx (shp x) -> node_at (dec2 w (mode_name m) [-2; -1]%Z separable) ["a"; "h"; "v"; "d"]%char (fibre nax idx x) p = Ok (fibre nax idx v).
Proof.
  intros Hb Wx Hla Hax H nax idx Hf. pose proof (good_axes_ok _ _ Hax) as Hg0. fold nax in Hg0.
  apply (node_fibre (fun t => wf t /\ rank t = rank x /\ fib_ok nax idx (shp t)) (fibre nax idx) (dec2 w (mode_name m) axes separable)); auto.
  intros t ch (Wt & Rt & Ft) E. destruct (dec2_inv w m L axes separable t ch Hb Wt Hla E) as (Hd & Hat & Had & ->). rewrite Rt in *. fold nax in Had |- *.
  assert (Hg : good_axes (rank t) nax) by (rewrite Rt; exact Hg0). assert (Hn : List.length nax = 2%nat) by (unfold nax; rewrite map_length; exact Hla). pose proof Hb as (B1 & B2 & B3 & B4).
  assert (Q : forall fs, wf (dwt_axes fs m nax t) /\ rank (dwt_axes fs m nax t) = rank x /\ fib_ok nax idx (shp (dwt_axes fs m nax t))).
  { intros fs. split; [apply wf_make|]. split; [unfold dwt_axes; rewrite rank_along; exact Rt|]. unfold dwt_axes. rewrite shp_along. apply fib_ok_shape, Ft. }
  split; [repeat (apply Forall_cons; [apply Q|]); constructor|].
  assert (Hr1 : rank (fibre nax idx t) = 2%nat) by (rewrite rank_fibre; exact Hn).
  assert (Hz : map (norm_axis (rank (fibre nax idx t))) [-2; -1]%Z = seq 0 (List.length nax)) by (rewrite Hr1, Hn; reflexivity).
  rewrite (dec2_ok w m L [-2; -1]%Z separable (fibre nax idx t)); auto.
  - rewrite Hz. f_equal. rewrite map_map. apply map_ext. intros c. symmetry.
    assert (G : List.length (filters2 separable (dec_lo w) (dec_hi w) c) = 2%nat /\ Forall (fun f => List.length f = L) (filters2 separable (dec_lo w) (dec_hi w) c)).
    { unfold filters2. repeat match goal with |- context [if ?b then _ else _] => destruct b end; split; try reflexivity; repeat constructor; assumption. }
    apply (fibre_dwt _ m L nax idx t Hg Ft B3); [rewrite Hn|..]; try apply G. exact Had.
  - apply wf_fibre.
  - rewrite Hr1. apply (default_axes_ok 2 2). lia.
  - rewrite Hz. unfold adm_axes. rewrite shp_fibre, gather_seq_all by apply gather_length. exact Had.
Qed.

(** ** boundary wavelets *)
Lemma new_mwn_axes N w level axes axes' method odd sep o : new_mwavedecn N w level (AxSeq axes) method odd sep = Ok o -> ensure_axes (AxSeq axes') N = Ok axes' ->
  new_mwavedecn N w level (AxSeq axes') method odd sep = Ok (mkMWN w level axes' method odd sep None [] [] false []).
Proof.
  unfold new_mwavedecn. intros H ->. cbn [rbind]. apply rbind_ok in H as (ax & _ & H). destruct (negb (orth_supported method)); [discriminate|]. destruct (negb _); [discriminate|]. reflexivity.
Qed.
Lemma new_mrn_axes N w axes axes' method sep o : new_mwaverecn N w (AxSeq axes) method sep = Ok o -> ensure_axes (AxSeq axes') N = Ok axes' ->
  new_mwaverecn N w (AxSeq axes') method sep = Ok (mkMRN w axes' method sep [] None None false).
Proof.
  unfold new_mwaverecn. intros H ->. cbn [rbind]. apply rbind_ok in H as (ax & _ & H). destruct (negb (orth_supported method)); [discriminate|]. destruct (negb _); [discriminate|]. reflexivity.
Qed.
Lemma new_mw_axis w level axis method odd o : new_mwavedec w level (AxInt axis) method odd = Ok o ->
  new_mwavedec w level (AxInt (-1)%Z) method odd = Ok (mkMW w level (-1)%Z method odd None [] [] false []).
Proof.
  unfold new_mwavedec. intros H. apply rbind_ok in H as (ax & _ & H). cbn [ensure_axes rbind]. destruct (negb (orth_supported method)); [discriminate|]. destruct (negb _); [discriminate|]. reflexivity.
Qed.
Lemma new_mr_axis w axis method o : new_mwaverec w (AxInt axis) method = Ok o ->
  new_mwaverec w (AxInt (-1)%Z) method = Ok (mkMR w [(-1)%Z] method [] None None false []).
Proof.
  unfold new_mwaverec. intros H. apply rbind_ok in H as (ax & _ & H). cbn [ensure_axes rbind]. destruct (negb (orth_supported method)); [discriminate|]. destruct (negb _); [discriminate|]. reflexivity.
Qed.
Lemma fibre_band M m nax k idx x : good_axes (rank x) nax -> fib_ok nax idx (shp x) -> Forall (fun n => (2 <= n)%nat) (gather nax 0%nat (shp x)) ->
  fibre nax idx (bwn_band M m nax k x) = bwn_band M m (seq 0 (List.length nax)) k (fibre nax idx x).
Proof.
  intros Hg Hf Hs. unfold bwn_band. apply fibre_along; auto; [rewrite map_length; apply gather_length|]. apply bwn_ext. exact Hs.
Qed.
Lemma fibre_bapprox M m nax idx L J : (2 <= L)%nat -> forall j x, (j <= J)%nat -> good_axes (rank x) nax -> fib_ok nax idx (shp x) -> fitsN L J (gather nax 0%nat (shp x)) ->
  fibre nax idx (bwn_approx M m nax j x) = bwn_approx M m (seq 0 (List.length nax)) j (fibre nax idx x) /\
  rank (bwn_approx M m nax j x) = rank x /\ fib_ok nax idx (shp (bwn_approx M m nax j x)) /\ fitsN L (J - j) (gather nax 0%nat (shp (bwn_approx M m nax j x))).
Proof.
  intros HL. induction j as [|j IH]; intros x Hj Hg Hf HF; [rewrite Nat.sub_0_r; auto|]. unfold bwn_approx in *. cbn [Nat.iter nat_rect].
  destruct (IH x ltac:(lia) Hg Hf HF) as (E & R & F & N). set (z := Nat.iter j _ x) in *. fold (Nat.iter j (bwn_band M m nax (repeat false (List.length nax))) x). fold z.
  fold (Nat.iter j (bwn_band M m (seq 0 (List.length nax)) (repeat false (List.length (seq 0 (List.length nax))))) (fibre nax idx x)). rewrite <- E.
  assert (Hgz : good_axes (rank z) nax) by (rewrite R; exact Hg). replace (J - j)%nat with (S (J - S j)) in N by lia. cbn [fitsN] in N. destruct N as [N1 N2].
  split; [rewrite seq_length; apply fibre_band; auto; eapply Forall_impl; [|exact N1]; cbn; lia|].
  split; [unfold bwn_band; rewrite rank_along; exact R|]. split; [unfold bwn_band; rewrite shp_along; apply fib_ok_shape, F|].
  unfold bwn_band. rewrite gather_along; [exact N2|exact Hgz|]. rewrite map_length. apply gather_length.
Qed.
Lemma fibre_coeff M m nax k idx L J j x : (2 <= L)%nat -> (j < J)%nat -> good_axes (rank x) nax -> fib_ok nax idx (shp x) -> fitsN L J (gather nax 0%nat (shp x)) ->
  fibre nax idx (bwn_band M m nax k (bwn_approx M m nax j x)) = bwn_band M m (seq 0 (List.length nax)) k (bwn_approx M m (seq 0 (List.length nax)) j (fibre nax idx x)).
Proof.
  intros HL Hj Hg Hf HF. destruct (fibre_bapprox M m nax idx L J HL j x ltac:(lia) Hg Hf HF) as (E & R & F & N). rewrite <- E.
  replace (J - j)%nat with (S (J - S j)) in N by lia. cbn [fitsN] in N. apply fibre_band; [rewrite R; exact Hg|exact F|]. eapply Forall_impl; [|exact (proj1 N)]. cbn. lia.
Qed.
Lemma fibre_bwn2 M m nax ks L J idx x : (2 <= L)%nat -> good_axes (rank x) nax -> fib_ok nax idx (shp x) -> fitsN L J (gather nax 0%nat (shp x)) ->
  pc_map (fibre nax idx) (bwn2_coeffs M m nax ks J x) = bwn2_coeffs M m (seq 0 (List.length nax)) ks J (fibre nax idx x).
Proof.
  intros HL Hg Hf HF. unfold pc_map, bwn2_coeffs. cbn [pc_items pc_is_list map pv_map]. f_equal. f_equal; [f_equal; apply (fibre_bapprox M m nax idx L J); auto|].
  rewrite map_map. apply map_ext_in. intros j Hj. apply in_rev in Hj. apply in_seq in Hj. cbn [pv_map]. f_equal. rewrite map_map. apply map_ext. intros k. apply (fibre_coeff M m nax k idx L J); auto. lia.
Qed.
Lemma fibre_bwn3 M m nax ks L J idx x : (2 <= L)%nat -> good_axes (rank x) nax -> fib_ok nax idx (shp x) -> fitsN L J (gather nax 0%nat (shp x)) ->
  pc_map (fibre nax idx) (bwn3_coeffs M m nax ks J x) = bwn3_coeffs M m (seq 0 (List.length nax)) ks J (fibre nax idx x).
Proof.
  intros HL Hg Hf HF. unfold pc_map, bwn3_coeffs. cbn [pc_items pc_is_list map pv_map]. f_equal. f_equal; [f_equal; apply (fibre_bapprox M m nax idx L J); auto|].
  rewrite map_map. apply map_ext_in. intros j Hj. apply in_rev in Hj. apply in_seq in Hj. cbn [pv_map]. f_equal. rewrite map_map. apply map_ext. intros k. cbn [fst snd]. f_equal. apply (fibre_coeff M m nax k idx L J); auto. lia.
Qed.

Variable LA : linalg K.
Hypothesis HD : domain K.
Hypothesis HR : formally_real K.
Variables (w : wavelet K) (L : nat) (method : string) (m : mode).
Hypothesis HLA : la_ok LA method.
Hypothesis B : orthogonal_bank L (dec_lo w) (dec_hi w) (rec_lo w) (rec_hi w).
Hypothesis HI : boundary_independent L (dec_lo w) (dec_hi w).
Let odd := Some (mode_name m).
Let HA g : mats_ok LA w method L g := bank_mats LA HD HR g w L method HLA B HI.

Lemma fibre_nonempty nax idx x : List.length nax = rank (fibre nax idx x) -> batch_nonempty (seq 0 (List.length nax)) (fibre nax idx x).
Proof using. intros H d Hd Hn. exfalso. apply Hn, in_seq. unfold rank in H. lia. Qed.

(** MatrixWavedec2 of one image is that image of MatrixWavedec2 *)
Theorem C70_matrix_2d level axes o x ox cx : wf x ->
  new_mwavedecn 2 w level (AxSeq axes) method odd true = Ok o -> mw2_call LA o x = (ox, Ok cx) ->
  let nax := map (norm_axis (rank x)) axes in
  exists o1, new_mwavedecn 2 w level (AxSeq [-2; -1]%Z) method odd true = Ok o1 /\
  forall idx, fib_ok nax idx (shp x) -> snd (mw2_call LA o1 (fibre nax idx x)) = Ok (pc_map (fibre nax idx) cx).
Proof using All.
  intros Wx Ho Ex nax. pose proof Ho as Ho0. apply new_mwn_inv in Ho as [Hl ->]. eexists. split; [eapply new_mwn_axes; [exact Ho0|reflexivity]|]. intros idx Hf.
  destruct (sep_outcome LA HD HR w L method m HLA B HI level axes x ox cx Wx Hl Ex) as (Hd & Hax & lev & Hlev & Hb & ->).
  pose proof (good_axes_ok _ _ Hax) as Hg. fold nax in Hg, Hlev |- *. assert (Hn : List.length nax = 2%nat) by (unfold nax; rewrite map_length; exact Hl).
  assert (Hr1 : rank (fibre nax idx x) = 2%nat) by (rewrite rank_fibre; exact Hn).
  assert (Hz : map (norm_axis (rank (fibre nax idx x))) [-2; -1]%Z = seq 0 (List.length nax)) by (rewrite Hr1, Hn; reflexivity).
  assert (Hs : gather (seq 0 (List.length nax)) 0%nat (shp (fibre nax idx x)) = gather nax 0%nat (shp x)) by (rewrite shp_fibre; apply gather_seq_all, gather_length).
  pose proof (sep_call LA HD HR w L method m HLA B HI level [-2; -1]%Z (fibre nax idx x) lev (wf_fibre nax idx x)) as Q. cbv zeta in Q. rewrite Hz, Hs in Q.
  destruct Q as [o' E]; auto.
  - rewrite Hr1. apply (default_axes_ok 2 2). lia.
  - intros _. apply fsz_pos, fibre_nonempty. congruence.
  - unfold odd. rewrite E. cbn [snd]. f_equal. symmetry. apply (fibre_bwn2 _ m nax _ L); auto; [apply (ob_two _ _ _ _ _ B)|apply fits_levels_n].
Qed.
Theorem C70_matrix_2d_nonseparable level axes o x ox cx : wf x ->
  new_mwavedecn 2 w level (AxSeq axes) method odd false = Ok o -> mw2_call LA o x = (ox, Ok cx) ->
  let nax := map (norm_axis (rank x)) axes in
  exists o1, new_mwavedecn 2 w level (AxSeq [-2; -1]%Z) method odd false = Ok o1 /\
  forall idx, fib_ok nax idx (shp x) -> snd (mw2_call LA o1 (fibre nax idx x)) = Ok (pc_map (fibre nax idx) cx).
Proof using All.
  intros Wx Ho Ex nax. pose proof Ho as Ho0. apply new_mwn_inv in Ho as [Hl ->]. eexists. split; [eapply new_mwn_axes; [exact Ho0|reflexivity]|]. intros idx Hf.
  destruct (non_outcome LA HD HR w L method HLA B HI m level axes x ox cx Wx Hl Ex) as (Hd & Hax & lev & Hlev & Hb & ->).
  pose proof (good_axes_ok _ _ Hax) as Hg. fold nax in Hg, Hlev |- *. assert (Hn : List.length nax = 2%nat) by (unfold nax; rewrite map_length; exact Hl).
  assert (Hr1 : rank (fibre nax idx x) = 2%nat) by (rewrite rank_fibre; exact Hn).
  assert (Hz : map (norm_axis (rank (fibre nax idx x))) [-2; -1]%Z = seq 0 (List.length nax)) by (rewrite Hr1, Hn; reflexivity).
  assert (Hs : gather (seq 0 (List.length nax)) 0%nat (shp (fibre nax idx x)) = gather nax 0%nat (shp x)) by (rewrite shp_fibre; apply gather_seq_all, gather_length).
  pose proof (non_call LA HD HR w L method HLA B HI m level [-2; -1]%Z (fibre nax idx x) lev (wf_fibre nax idx x)) as Q. cbv zeta in Q. rewrite Hz, Hs in Q.
  destruct Q as [o' E]; auto.
  - rewrite Hr1. apply (default_axes_ok 2 2). lia.
  - split; [destruct Hb as [Hb _]; exact Hb|]. apply fsz_pos, fibre_nonempty. congruence.
  - unfold odd. rewrite E. cbn [snd]. f_equal. symmetry. apply (fibre_bwn2 _ m nax _ L); auto; [apply (ob_two _ _ _ _ _ B)|apply fits_levels_n].
Qed.
Lemma three_outcome level axes x ox cx : wf x -> List.length axes = 3%nat -> mw3_call LA (mkMWN w level axes method odd true None [] [] false []) x = (ox, Ok cx) ->
  is_dtype_supported (tdtype x) = true /\ axes_ok (rank x) axes /\
  let nax := map (norm_axis (rank x)) axes in let s := gather nax 0%nat (shp x) in
  exists lev, wn_lev w level s = Ok lev /\ cx = bwn3_coeffs (tprod (Bm LA w method (ttag x))) m nax bands3 (bwn_levels (Z.to_nat lev) L s) x.
Proof using All.
  intros Wt Hl Et. destruct (mw3_call_inv LA (mkMWN w level axes method odd true None [] [] false []) ox axes x cx Wt eq_refl Hl Et) as (Hd & Hax & lev & Hlev). cbn [wn_wav wn_level] in Hlev.
  split; [exact Hd|]. split; [exact Hax|]. exists lev. split; [exact Hlev|]. destruct (call3 LA HD HR w L method m HLA B HI level axes x lev) as [o' E]; auto. unfold odd in Et. rewrite E in Et. apply (f_equal snd) in Et. cbn [snd] in Et. apply ok_inj in Et. congruence.
Qed.
Theorem C70_matrix_3d level axes o x ox cx : wf x ->
  new_mwavedecn 3 w level (AxSeq axes) method odd true = Ok o -> mw3_call LA o x = (ox, Ok cx) ->
  let nax := map (norm_axis (rank x)) axes in
  exists o1, new_mwavedecn 3 w level (AxSeq [-3; -2; -1]%Z) method odd true = Ok o1 /\
  forall idx, fib_ok nax idx (shp x) -> snd (mw3_call LA o1 (fibre nax idx x)) = Ok (pc_map (fibre nax idx) cx).
Proof using All.
  intros Wx Ho Ex nax. pose proof Ho as Ho0. apply new_mwn_inv in Ho as [Hl ->]. eexists. split; [eapply new_mwn_axes; [exact Ho0|reflexivity]|]. intros idx Hf.
  destruct (three_outcome level axes x ox cx Wx Hl Ex) as (Hd & Hax & lev & Hlev & ->).
  pose proof (good_axes_ok _ _ Hax) as Hg. fold nax in Hg, Hlev |- *. assert (Hn : List.length nax = 3%nat) by (unfold nax; rewrite map_length; exact Hl).
  assert (Hr1 : rank (fibre nax idx x) = 3%nat) by (rewrite rank_fibre; exact Hn).
  assert (Hz : map (norm_axis (rank (fibre nax idx x))) [-3; -2; -1]%Z = seq 0 (List.length nax)) by (rewrite Hr1, Hn; reflexivity).
  assert (Hs : gather (seq 0 (List.length nax)) 0%nat (shp (fibre nax idx x)) = gather nax 0%nat (shp x)) by (rewrite shp_fibre; apply gather_seq_all, gather_length).
  pose proof (call3 LA HD HR w L method m HLA B HI level [-3; -2; -1]%Z (fibre nax idx x) lev (wf_fibre nax idx x)) as Q. cbv zeta in Q. rewrite Hz, Hs in Q.
  destruct Q as [o' E]; auto.
  - rewrite Hr1. apply (default_axes_ok 3 3). lia.
  - unfold odd. rewrite E. cbn [snd]. f_equal. symmetry. apply (fibre_bwn3 _ m nax _ L); auto; [apply (ob_two _ _ _ _ _ B)|apply fits_levels_n].
Qed.

Lemma fibre_ext_even ax idx x : (ax < rank x)%nat -> fib_ok [ax] idx (shp x) -> wf x -> evenable m (nth ax (shp x) 0%nat) ->
  fibre [ax] idx (ext_even m [ax] x) = ext_even m [0%nat] (fibre [ax] idx x).
Proof using.
  intros Ha Hf Hw He. destruct He as [He|He].
  - rewrite !ext_even_id; auto; try (apply good_axes1; assumption); try apply wf_fibre.
    + apply good_axes1. rewrite rank_fibre. auto.
    + cbn. repeat constructor. exact He.
    + cbn [gather map]. repeat constructor. exact He.
  - unfold ext_even. apply (fibre_along _ _ [ax] idx x); auto; [apply good_axes1, Ha|]. cbn [gather map]. intros X X' ks Hk H. apply ext_get_ext; [rewrite map_length; exact Hk| |exact H].
    repeat constructor. apply padable_ext, He.
Qed.
Lemma fibre_bw_coeffs (A : nat -> nat -> nat -> K) ax J idx x : (2 <= L)%nat -> (ax < rank x)%nat -> fib_ok [ax] idx (shp x) -> fitsN L J [nth ax (shp x) 0%nat] ->
  map (fibre [ax] idx) (bw_coeffs A m ax J x) = bw_coeffs A m 0 J (fibre [ax] idx x).
Proof using.
  intros HL Ha Hf HF. unfold bw_coeffs. cbn [map].
  assert (Hr1 : (0 < rank (fibre [ax] idx x))%nat) by (rewrite rank_fibre; auto).
  assert (Qr : forall (a : nat) t j, (a < rank t)%nat -> (a < rank (bw_approx A m a j t))%nat).
  { intros a t j Ht. unfold bw_approx. induction j as [|j IH]; [exact Ht|]. cbn [Nat.iter nat_rect]. fold (Nat.iter j (bw_lo A m a) t). unfold rank in *. rewrite bw_lo_shp, updn_length. exact IH. }
  f_equal.
  - rewrite <- !bw_approx1 by assumption. apply (fibre_bapprox (tprod A) m [ax] idx L J); auto. apply good_axes1, Ha.
  - rewrite map_map. apply map_ext_in. intros j Hj. apply in_rev in Hj. apply in_seq in Hj.
    rewrite <- (bw_band1 A m ax true) by (apply Qr; exact Ha). rewrite <- (bw_band1 A m 0 true) by (apply Qr; exact Hr1). rewrite <- !bw_approx1 by assumption.
    apply (fibre_coeff (tprod A) m [ax] [true] idx L J); auto; [lia|apply good_axes1, Ha].
Qed.
Theorem C70_matrix_1d level axis o x ox cx : wf x ->
  new_mwavedec w level (AxInt axis) method odd = Ok o -> mw_call LA o x = (ox, Ok cx) ->
  let ax := norm_axis (rank x) axis in
  exists o1, new_mwavedec w level (AxInt (-1)%Z) method odd = Ok o1 /\
  forall idx, fib_ok [ax] idx (shp x) -> snd (mw_call LA o1 (fibre [ax] idx x)) = Ok (pc_map (fibre [ax] idx) cx).
Proof using All.
  intros Wx Ho Ex ax. pose proof Ho as Ho0. apply new_mw_inv in Ho. subst o. eexists. split; [exact (new_mw_axis _ _ _ _ _ _ Ho0)|]. intros idx Hf.
  destruct (mat1_outcome LA HD HR w L method m HLA B HI level axis x ox cx Wx Ex) as (Hd & Hax & He & lev & Hlev & ->). pose proof (norm_axis_lt _ _ Hax) as Ha. fold ax in Ha, He, Hlev |- *.
  assert (Hr1 : rank (fibre [ax] idx x) = 1%nat) by apply rank_fibre.
  assert (Hz : norm_axis (rank (fibre [ax] idx x)) (-1)%Z = 0%nat) by (rewrite Hr1; reflexivity).
  pose proof (mw_call_ok LA w method m L (ttag x) (HA _) (ob_two _ _ _ _ _ B) (ob_len_lo _ _ _ _ _ B) (bank_rl w L B) (fun n => boundary_s_transpose LA (ttag x) w n L method B) (mkMW w level (-1)%Z method (Some (mode_name m)) None [] [] false []) (fibre [ax] idx x) (-1)%Z (Some (mode_name m)) lev) as Q.
  cbv zeta in Q. rewrite Hz in Q. cbn [fibre shp tmake gather map nth] in Q. fold (fibre [ax] idx x) in Q.
  destruct Q as (o2 & E & _); auto.
  - apply translate_mode.
  - apply wf_fibre.
  - change (axis_ok (rank (fibre [ax] idx x)) (-1)%Z). rewrite Hr1. unfold axis_ok. lia.
  - left. reflexivity.
  - unfold odd. change (snd (mw_call LA (mkMW w level (-1)%Z method (Some (mode_name m)) None [] [] false []) (fibre [ax] idx x)) = Ok (pc_map (fibre [ax] idx) (mkPC true (map PT (bw_coeffs (Bm LA w method (ttag x)) m ax (bw_levels (Z.to_nat lev) L (even_up (nth ax (shp x) 0%nat))) (ext_even m [ax] x)))))).
    change (mw_call LA (mkMW w level (-1)%Z method (Some (mode_name m)) None [] [] false []) (fibre [ax] idx x) = (o2, Ok (mkPC true (map PT (bw_coeffs (Bm LA w method (ttag x)) m 0 (bw_levels (Z.to_nat lev) L (even_up (nth ax (shp x) 0%nat))) (ext_even m [0%nat] (fibre [ax] idx x))))))) in E.
    rewrite E. cbn [snd]. f_equal. rewrite pc_map_list. do 2 f_equal. rewrite <- fibre_ext_even by assumption. symmetry.
    assert (Hre : rank (ext_even m [ax] x) = rank x) by (unfold ext_even; rewrite rank_along; reflexivity).
    apply fibre_bw_coeffs; [apply (ob_two _ _ _ _ _ B)|rewrite Hre; exact Ha|unfold ext_even; rewrite shp_along; apply fib_ok_shape, Hf|].
    assert (En : nth ax (shp (ext_even m [ax] x)) 0%nat = even_up (nth ax (shp x) 0%nat)).
    { unfold ext_even. rewrite shp_along. cbn [gather map upds]. apply nth_updn_eq. exact Ha. }
    rewrite En. set (n := even_up _). clearbody n. clear.
    generalize (Z.to_nat lev). intros f. revert n. induction f as [|f IH]; intros n; [exact I|]. cbn [bw_levels]. destruct (Nat.ltb_spec n L); [exact I|]. cbn [fitsN map]. split; [repeat constructor; assumption|apply IH].
Qed.

Theorem C70_matrix_rec_2d axes r g sh s u levels : new_mwaverecn 2 w (AxSeq axes) method true = Ok r ->
  axes_ok (List.length sh) axes -> is_dtype_supported (fst g) = true -> List.length s = 2%nat ->
  let nax := map (norm_axis (List.length sh)) axes in let J := List.length levels in
  (forall d, (d < List.length sh)%nat -> ~ In d nax -> (0 < nth d sh 0)%nat) -> (0 < J)%nat -> Forall (fun n => (L <= n / 2 ^ (J - 1))%nat) s -> coeff_sizes nax g sh s 3 u levels ->
  let c := mkPC false (PT u :: map (fun l => PTup l) levels) in
  exists x r1, snd (mr2_call LA r (pc_items c)) = Ok x /\ new_mwaverecn 2 w (AxSeq [-2; -1]%Z) method true = Ok r1 /\
    forall idx, fib_ok nax idx sh -> snd (mr2_call LA r1 (pc_items (pc_map (fibre nax idx) c))) = Ok (fibre nax idx x).
Proof using All.
  intros Hr Hax Hdt Hs nax J Hb HJ HLs Hc c.
  destruct (C65_onto_2d LA HD HR w L method m HLA B HI axes r g sh s u levels) as (x & E1 & X1 & X2 & X3 & E2); auto.
  exists x. eexists. split; [exact E1|]. split; [eapply new_mrn_axes; [exact Hr|reflexivity]|]. intros idx Hf. fold J in E2. fold nax in X3.
  assert (Hrx : rank x = List.length sh) by (unfold rank; rewrite X3; apply upds_length).
  pose proof Hr as Hr0. apply new_mrn_inv in Hr0 as [Hl _].
  assert (Hn : List.length nax = 2%nat) by (unfold nax; rewrite map_length; exact Hl).
  assert (Hgx : gather nax 0%nat (shp x) = s) by (rewrite X3; destruct (good_axes_ok _ _ Hax); apply gather_upds; [assumption|congruence|assumption]).
  assert (Hbn : batch_nonempty nax x) by (intros d Hd Hnd; rewrite X3 in Hd |- *; rewrite upds_length in Hd; rewrite nth_upds_notin by exact Hnd; apply Hb; assumption).
  assert (EJL : bwn_levels J L s = J) by (apply levels_fits_n, fits_of; [apply Hc|exact HLs]).
  destruct (proj2 (C43_accepts LA HD HR w L method m HLA B HI (Some (Z.of_nat J)) axes x X1 Hl)) as (o & o2 & c2 & Ho & Hc2).
  { split; [unfold tdtype; rewrite X2; exact Hdt|]. rewrite Hrx. split; [exact Hax|]. exists (Z.of_nat J). split; [split; [reflexivity|lia]|]. right. exact Hbn. }
  destruct (E2 o Ho) as [o' Ecx]. fold c in Ecx.
  pose proof (C70_matrix_2d (Some (Z.of_nat J)) axes o x o' _ X1 Ho Ecx) as (o1 & Ho1 & El). rewrite Hrx in El. fold nax in El. assert (Hfx : fib_ok nax idx (shp x)) by (rewrite X3; apply fib_ok_shape, Hf). specialize (El idx Hfx).
  destruct (mw2_call LA o1 (fibre nax idx x)) as [oz rz] eqn:Ez. cbn [snd] in El. subst rz.
  pose proof (C43_reconstruction LA HD HR w L method m HLA B HI (Some (Z.of_nat J)) [-2; -1]%Z o1 (fibre nax idx x) oz _ _ (wf_fibre nax idx x) Ho1 Ez (new_mrn_axes _ _ _ [-2; -1]%Z _ _ _ Hr eq_refl)) as Er. cbv zeta in Er.
  assert (Hr1 : rank (fibre nax idx x) = 2%nat) by (rewrite rank_fibre; exact Hn).
  assert (Hz : map (norm_axis (rank (fibre nax idx x))) [-2; -1]%Z = seq 0 (List.length nax)) by (rewrite Hr1, Hn; reflexivity). rewrite Hz in Er.
  assert (Hlen : (1 < List.length (pc_items (pc_map (fibre nax idx) c)))%nat) by (unfold pc_map, c; cbn [pc_items map List.length]; rewrite !map_length; fold J; lia).
  rewrite (proj2 (Nat.eqb_neq _ 1)) in Er by lia. specialize (Er ltac:(intros Hq; lia)).
  rewrite Er. f_equal. apply ext_even_id; [apply wf_fibre|rewrite Hr1, Hn; apply good_seq|]. rewrite shp_fibre, gather_seq_all by apply gather_length. rewrite Hgx.
  pose proof (level_even J s 0 (proj1 Hc) HJ) as He. cbn [Nat.pow] in He. rewrite (map_ext (fun n => n / 1)%nat (fun n => n)) in He by (intros; apply Nat.div_1_r). rewrite map_id in He. exact He.
Qed.
Theorem C70_matrix_rec_2d_nonseparable axes r g sh s u levels : new_mwaverecn 2 w (AxSeq axes) method false = Ok r ->
  axes_ok (List.length sh) axes -> is_dtype_supported (fst g) = true -> List.length s = 2%nat ->
  let nax := map (norm_axis (List.length sh)) axes in let J := List.length levels in
  (forall d, (d < List.length sh)%nat -> ~ In d nax -> (0 < nth d sh 0)%nat) -> (0 < J)%nat -> Forall (fun n => (L <= n / 2 ^ (J - 1))%nat) s -> coeff_sizes nax g sh s 3 u levels ->
  let c := mkPC false (PT u :: map (fun l => PTup l) levels) in
  exists x r1, snd (mr2_call LA r (pc_items c)) = Ok x /\ new_mwaverecn 2 w (AxSeq [-2; -1]%Z) method false = Ok r1 /\
    forall idx, fib_ok nax idx sh -> snd (mr2_call LA r1 (pc_items (pc_map (fibre nax idx) c))) = Ok (fibre nax idx x).
Proof using All.
  intros Hr Hax Hdt Hs nax J Hb HJ HLs Hc c.
  destruct (C65_onto_2d_nonseparable LA HD HR w L method m HLA B HI axes r g sh s u levels) as (x & E1 & X1 & X2 & X3 & E2); auto.
  exists x. eexists. split; [exact E1|]. split; [eapply new_mrn_axes; [exact Hr|reflexivity]|]. intros idx Hf. fold J in E2. fold nax in X3.
  assert (Hrx : rank x = List.length sh) by (unfold rank; rewrite X3; apply upds_length).
  pose proof Hr as Hr0. apply new_mrn_inv in Hr0 as [Hl _].
  assert (Hn : List.length nax = 2%nat) by (unfold nax; rewrite map_length; exact Hl).
  assert (Hgx : gather nax 0%nat (shp x) = s) by (rewrite X3; destruct (good_axes_ok _ _ Hax); apply gather_upds; [assumption|congruence|assumption]).
  assert (Hbn : batch_nonempty nax x) by (intros d Hd Hnd; rewrite X3 in Hd |- *; rewrite upds_length in Hd; rewrite nth_upds_notin by exact Hnd; apply Hb; assumption).
  assert (EJL : bwn_levels J L s = J) by (apply levels_fits_n, fits_of; [apply Hc|exact HLs]).
  destruct (proj2 (C43_nonseparable_accepts LA HD HR w L method HLA B HI m (Some (Z.of_nat J)) axes x X1 Hl)) as (o & o2 & c2 & Ho & Hc2).
  { split; [unfold tdtype; rewrite X2; exact Hdt|]. rewrite Hrx. split; [exact Hax|]. exists (Z.of_nat J). split; [split; [reflexivity|lia]|]. fold nax. rewrite Hgx, Nat2Z.id, EJL. auto. }
  destruct (E2 o Ho) as [o' Ecx]. fold c in Ecx.
  pose proof (C70_matrix_2d_nonseparable (Some (Z.of_nat J)) axes o x o' _ X1 Ho Ecx) as (o1 & Ho1 & El). rewrite Hrx in El. fold nax in El. assert (Hfx : fib_ok nax idx (shp x)) by (rewrite X3; apply fib_ok_shape, Hf). specialize (El idx Hfx).
  destruct (mw2_call LA o1 (fibre nax idx x)) as [oz rz] eqn:Ez. cbn [snd] in El. subst rz.
  pose proof (C43_nonseparable_reconstruction LA HD HR w L method HLA B HI m (Some (Z.of_nat J)) [-2; -1]%Z o1 (fibre nax idx x) oz _ _ (wf_fibre nax idx x) Ho1 Ez (new_mrn_axes _ _ _ [-2; -1]%Z _ _ _ Hr eq_refl)) as Er. cbv zeta in Er.
  assert (Hr1 : rank (fibre nax idx x) = 2%nat) by (rewrite rank_fibre; exact Hn).
  assert (Hz : map (norm_axis (rank (fibre nax idx x))) [-2; -1]%Z = seq 0 (List.length nax)) by (rewrite Hr1, Hn; reflexivity). rewrite Hz in Er.
  rewrite Er. f_equal. apply ext_even_id; [apply wf_fibre|rewrite Hr1, Hn; apply good_seq|]. rewrite shp_fibre, gather_seq_all by apply gather_length. rewrite Hgx.
  pose proof (level_even J s 0 (proj1 Hc) HJ) as He. cbn [Nat.pow] in He. rewrite (map_ext (fun n => n / 1)%nat (fun n => n)) in He by (intros; apply Nat.div_1_r). rewrite map_id in He. exact He.
Qed.
Theorem C70_matrix_rec_3d axes r g sh s u levels : new_mwaverecn 3 w (AxSeq axes) method true = Ok r ->
  axes_ok (List.length sh) axes -> is_dtype_supported (fst g) = true -> List.length s = 3%nat ->
  let nax := map (norm_axis (List.length sh)) axes in let J := List.length levels in
  (0 < J)%nat -> Forall (fun n => (L <= n / 2 ^ (J - 1))%nat) s -> coeff_sizes nax g sh s 7 u levels ->
  let c := mkPC false (PT u :: map (fun l => PDict (combine (map band_key bands3) l)) levels) in
  exists x r1, snd (fst (mr3_call LA r (pc_items c))) = Ok x /\ new_mwaverecn 3 w (AxSeq [-3; -2; -1]%Z) method true = Ok r1 /\
    forall idx, fib_ok nax idx sh -> snd (fst (mr3_call LA r1 (pc_items (pc_map (fibre nax idx) c)))) = Ok (fibre nax idx x).
Proof using All.
  intros Hr Hax Hdt Hs nax J HJ HLs Hc c.
  destruct (C65_onto_3d LA HD HR w L method m HLA B HI axes r g sh s u levels) as (x & E1 & X1 & X2 & X3 & E2); auto.
  exists x. eexists. split; [exact E1|]. split; [eapply new_mrn_axes; [exact Hr|reflexivity]|]. intros idx Hf. fold J in E2. fold nax in X3.
  assert (Hrx : rank x = List.length sh) by (unfold rank; rewrite X3; apply upds_length).
  pose proof Hr as Hr0. apply new_mrn_inv in Hr0 as [Hl _].
  assert (Hn : List.length nax = 3%nat) by (unfold nax; rewrite map_length; exact Hl).
  assert (Hgx : gather nax 0%nat (shp x) = s) by (rewrite X3; destruct (good_axes_ok _ _ Hax); apply gather_upds; [assumption|congruence|assumption]).
  destruct (proj2 (C45_accepts LA HD HR w L method m HLA B HI (Some (Z.of_nat J)) axes x X1 Hl)) as (o & o2 & c2 & Ho & Hc2).
  { split; [unfold tdtype; rewrite X2; exact Hdt|]. rewrite Hrx. split; [exact Hax|]. lia. }
  destruct (E2 o Ho) as [o' Ecx]. fold c in Ecx.
  pose proof (C70_matrix_3d (Some (Z.of_nat J)) axes o x o' _ X1 Ho Ecx) as (o1 & Ho1 & El). rewrite Hrx in El. fold nax in El. assert (Hfx : fib_ok nax idx (shp x)) by (rewrite X3; apply fib_ok_shape, Hf). specialize (El idx Hfx).
  destruct (mw3_call LA o1 (fibre nax idx x)) as [oz rz] eqn:Ez. cbn [snd] in El. subst rz.
  pose proof (C45_reconstruction LA HD HR w L method m HLA B HI (Some (Z.of_nat J)) [-3; -2; -1]%Z o1 (fibre nax idx x) oz _ _ (wf_fibre nax idx x) Ho1 Ez (new_mrn_axes _ _ _ [-3; -2; -1]%Z _ _ _ Hr eq_refl)) as Er. cbv zeta in Er.
  assert (Hr1 : rank (fibre nax idx x) = 3%nat) by (rewrite rank_fibre; exact Hn).
  assert (Hz : map (norm_axis (rank (fibre nax idx x))) [-3; -2; -1]%Z = seq 0 (List.length nax)) by (rewrite Hr1, Hn; reflexivity). rewrite Hz in Er.
  assert (Hlen : (1 < List.length (pc_items (pc_map (fibre nax idx) c)))%nat) by (unfold pc_map, c; cbn [pc_items map List.length]; rewrite !map_length; fold J; lia).
  specialize (Er Hlen).
  rewrite Er. f_equal. apply ext_even_id; [apply wf_fibre|rewrite Hr1, Hn; apply good_seq|]. rewrite shp_fibre, gather_seq_all by apply gather_length. rewrite Hgx.
  pose proof (level_even J s 0 (proj1 Hc) HJ) as He. cbn [Nat.pow] in He. rewrite (map_ext (fun n => n / 1)%nat (fun n => n)) in He by (intros; apply Nat.div_1_r). rewrite map_id in He. exact He.
Qed.
Theorem C70_matrix_rec_1d axis r g sh n u ds : new_mwaverec w (AxInt axis) method = Ok r ->
  (- Z.of_nat (List.length sh) <= axis < Z.of_nat (List.length sh))%Z -> is_dtype_supported (fst g) = true ->
  let ax := norm_axis (List.length sh) axis in let J := List.length ds in
  (0 < J)%nat -> (L <= n / 2 ^ (J - 1))%nat -> coeff_sizes [ax] g sh [n] 1 u (map (fun d => [d]) ds) ->
  exists x r1, snd (mr_call LA r (map PT (u :: ds))) = Ok x /\ new_mwaverec w (AxInt (-1)%Z) method = Ok r1 /\
    forall idx, fib_ok [ax] idx sh -> snd (mr_call LA r1 (map PT (map (fibre [ax] idx) (u :: ds)))) = Ok (fibre [ax] idx x).
Proof using All.
  intros Hr Hax Hdt ax J HJ HL Hc. pose proof (norm_axis_lt _ _ Hax) as Ha. fold ax in Ha.
  destruct (C65_onto_1d LA HD HR w L method m HLA B HI axis r g sh n u ds) as (x & E1 & X1 & X2 & X3 & E2); auto.
  exists x. eexists. split; [exact E1|]. split; [eapply new_mr_axis; exact Hr|]. intros idx Hf. fold J in E2. fold ax in X3.
  assert (Hrx : rank x = List.length sh) by (unfold rank; rewrite X3; apply updn_length).
  assert (Hgx : nth ax (shp x) 0%nat = n) by (rewrite X3; apply nth_updn_eq, Ha).
  assert (Hdv : Forall (Nat.divide (2 ^ J)) [n]) by (destruct Hc as [Hc _]; rewrite map_length in Hc; exact Hc).
  pose proof (level_even J [n] 0 Hdv HJ) as He. cbn [Nat.pow map] in He. rewrite Nat.div_1_r in He. apply Forall_inv in He.
  destruct (proj2 (C40_accepts LA HD HR w L method m HLA B HI (Some (Z.of_nat J)) axis x X1)) as (o & o2 & c2 & Ho & Hc2).
  { split; [unfold tdtype; rewrite X2; exact Hdt|]. rewrite Hrx. split; [exact Hax|]. split; [|lia]. fold ax. rewrite Hgx. intros _ E. subst n. cbn in He. lia. }
  destruct (E2 o Ho) as [o' Ecx].
  pose proof (C70_matrix_1d (Some (Z.of_nat J)) axis o x o' _ X1 Ho Ecx) as (o1 & Ho1 & El). rewrite Hrx in El. fold ax in El.
  assert (Hfx : fib_ok [ax] idx (shp x)) by (rewrite X3; apply (fib_ok_shape [ax] idx sh [n]), Hf). specialize (El idx Hfx).
  destruct (mw_call LA o1 (fibre [ax] idx x)) as [oz rz] eqn:Ez. cbn [snd] in El. subst rz. rewrite pc_map_list in Ez.
  pose proof (C40_reconstruction LA HD HR w L method m HLA B HI (Some (Z.of_nat J)) (-1)%Z o1 (fibre [ax] idx x) oz _ _ (wf_fibre [ax] idx x) Ho1 Ez (new_mr_axis _ _ _ _ Hr)) as Er. cbv zeta in Er. cbn [pc_items] in Er.
  rewrite Er. f_equal. assert (Hr1 : rank (fibre [ax] idx x) = 1%nat) by apply rank_fibre. rewrite Hr1. change (norm_axis 1 (-1)) with 0%nat.
  apply ext_even_id; [apply wf_fibre|apply good_axes1; rewrite Hr1; lia|]. cbn. rewrite Hgx. repeat constructor. exact He.
Qed.
End PB.
