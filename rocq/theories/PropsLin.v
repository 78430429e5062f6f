(** C66: linearity of the stationary transforms, the wavelet packets, the boundary-wavelet transforms and the
    continuous transform. *)
From Coq Require Import List Arith ZArith QArith Lia Bool String Ascii Ring.
From Coq Require Import ZifyNat ZifyBool.
From Verif Require Import Base Sums Tensor TensorFacts Util Perm Plumb Accept Spec Conv1 Conv2 PadFacts CoreFacts AnalysisInv Synthesis Filters Wave1 Wave1Inv Rec1 Props1 RecN Sep SepFacts Lin Swt SpecSwt SwtFacts SwtDec SwtRec PropsSwt Packets SpecPk PacketFacts PacketConv PropsPk PropsNd Sparse SparseFacts SpecMat SpecMatN SparseMM LinAlg Mat1 MatN MatOrth Boundary MatPre Mat1Facts Mat1Call Tags PropsMat1 MatNFacts MatNLoop MatNSep MatNNon MatNCall PropsMatN PropsMatN2 PropsMatNon EnergyN Surj PropsSurj Cwt SpecCwt CwtFacts PropsCwt.
Import ListNotations.
Ltac Zify.zify_post_hook ::= Z.div_mod_to_equations.
Local Open Scope nat_scope.
Local Arguments Nat.div : simpl never.
Local Arguments Nat.modulo : simpl never.

Section PL.
Context {K : CRing}.
Add Ring Kring : (cr_th K).
Local Open Scope K_scope.
Implicit Types (t u x y : tensor K) (w : wavelet K).

Lemma map2_maps' {A B C D : Type} (f : B -> C -> D) (g : A -> B) (h : A -> C) l : map2 f (map g l) (map h l) = map (fun q : A => f (g q) (h q)) l.
Proof. induction l as [|p l IH]; [reflexivity|]. cbn. rewrite IH. reflexivity. Qed.
Lemma pc_lin_list (a b : K) (ts us : list (tensor K)) : pc_lin a b (mkPC true (map PT ts)) (mkPC true (map PT us)) = mkPC true (map PT (map2 (tlin a b) ts us)).
Proof.
  unfold pc_lin. cbn [pc_items pc_is_list]. f_equal. revert us. induction ts as [|t ts IH]; intros [|u us]; try reflexivity. cbn. f_equal. apply IH.
Qed.

(** ** the stationary transform *)
Lemma gaxis_lin f d ax x y a b : wf x -> wf y -> shp y = shp x ->
  gaxis f d ax (tlin a b x y) = tlin a b (gaxis f d ax x) (gaxis f d ax y).
Proof.
  intros Hx Hy Hs. apply along_lin; auto. intros s X Y Z0 k H. unfold gop. apply sumf_lin. intros i Hi. rewrite H. ring.
Qed.
Lemma gapprox_lin lo ax j a b : forall lvl x y, wf x -> wf y -> shp y = shp x -> (ax < rank x)%nat ->
  gapprox lo ax lvl j (tlin a b x y) = tlin a b (gapprox lo ax lvl j x) (gapprox lo ax lvl j y).
Proof.
  induction j as [|j IH]; intros lvl x y Hx Hy Hs Ha; [reflexivity|]. cbn [gapprox]. rewrite gaxis_lin by assumption.
  assert (G : forall t, shp (gaxis lo (2 ^ lvl) ax t) = shp t) by (intros t; unfold gaxis; rewrite shp_along; apply upds_gather).
  apply IH; [apply wf_make|apply wf_make|rewrite !G; exact Hs|]. unfold rank. rewrite G. exact Ha.
Qed.
(** swt(a x + b y) = a swt(x) + b swt(y); no condition on the length *)
Theorem C66_swt x y w L level h axis cx cy a b : swt_input x h axis -> wf y -> shp y = shp x -> is_dtype_supported (tdtype y) = true -> even_bank w L ->
  swt x w level h = Ok cx -> swt y w level h = Ok cy -> swt (tlin a b x y) w level h = Ok (pc_lin a b cx cy).
Proof.
  intros (Hx & Hdx & Hh & Hax & Hn) Hy Hs Hdy (H1 & H2 & HL & He) Ex Ey.
  assert (Hry : rank y = rank x) by (unfold rank; rewrite Hs; reflexivity).
  set (ax := norm_axis (rank x) axis) in *. pose proof (norm_axis_lt _ _ Hax) as Ha. fold ax in Ha.
  rewrite (swt_gen x w L _ level h axis Hx Hdx Hh Hax H1 H2 HL He Hn (lev_swt _ _)) in Ex.
  rewrite (swt_gen y w L (levels_of level (nth ax (shp x) 0%nat)) level h axis) in Ey; auto; [|rewrite Hry; exact Hax|rewrite Hry; fold ax; rewrite Hs; exact Hn|rewrite Hry; fold ax; rewrite Hs; apply lev_swt].
  rewrite (swt_gen (tlin a b x y) w L (levels_of level (nth ax (shp x) 0%nat)) level h axis); auto; [|apply wf_tlin; assumption|apply lev_swt].
  apply ok_inj in Ex. apply ok_inj in Ey. subst cx cy. f_equal. rewrite pc_lin_list. do 2 f_equal.
  rewrite Hry. change (rank (tlin a b x y)) with (rank x). fold ax. unfold gspec. cbn [map2].
  rewrite gapprox_lin by assumption. f_equal. rewrite map2_maps'. apply map_ext. intros j.
  rewrite gapprox_lin by assumption. destruct (gapprox_facts (dec_lo w) ax j 0 x Hx Ha) as (F1 & F2 & _). destruct (gapprox_facts (dec_lo w) ax j 0 y Hy ltac:(lia)) as (G1 & G2 & _).
  apply gaxis_lin; auto. congruence.
Qed.
Lemma tlin_tlin (p q a b : K) x x' y y' : wf x -> wf x' -> wf y -> wf y' -> shp x' = shp x -> shp y = shp x -> shp y' = shp x -> ttag y = ttag x -> ttag x' = ttag x ->
  tlin p q (tlin a b x x') (tlin a b y y') = tlin a b (tlin p q x y) (tlin p q x' y').
Proof.
  intros W1 W2 W3 W4 S1 S2 S3 T1 T2. assert (Wa : wf (tlin a b x x')) by (apply wf_tlin; auto). assert (Wb : wf (tlin a b y y')) by (apply wf_tlin; auto; congruence).
  assert (Wc : wf (tlin p q x y)) by (apply wf_tlin; auto). assert (Wd : wf (tlin p q x' y')) by (apply wf_tlin; auto; congruence).
  apply t_ext; [apply wf_tlin; auto|apply wf_tlin; auto|reflexivity|reflexivity|]. intros idx _. rewrite !get_tlin; auto; try congruence. ring.
Qed.
Lemma circ_axis_lin f c d ax x y a b : wf x -> wf y -> shp y = shp x ->
  circ_axis f c d ax (tlin a b x y) = tlin a b (circ_axis f c d ax x) (circ_axis f c d ax y).
Proof. intros Hx Hy Hs. apply along_lin; auto. intros s X Y Z0 k H. unfold circ_conv. apply sumf_lin. intros i Hi. rewrite H. ring. Qed.
Lemma circ_axis_facts f c d ax x : wf (circ_axis f c d ax x) /\ shp (circ_axis f c d ax x) = shp x /\ ttag (circ_axis f c d ax x) = ttag x.
Proof. split; [apply wf_make|]. split; [|reflexivity]. unfold circ_axis. rewrite shp_along. apply upds_gather. Qed.
Lemma iswt_spec_lin half rlo rhi ax a b his : forall his' lo lo', List.length his' = List.length his ->
  wf lo -> wf lo' -> shp lo' = shp lo -> ttag lo' = ttag lo ->
  Forall (fun t => wf t /\ shp t = shp lo /\ ttag t = ttag lo) his -> Forall (fun t => wf t /\ shp t = shp lo /\ ttag t = ttag lo) his' ->
  iswt_spec half rlo rhi ax (tlin a b lo lo') (map2 (tlin a b) his his') = tlin a b (iswt_spec half rlo rhi ax lo his) (iswt_spec half rlo rhi ax lo' his').
Proof.
  induction his as [|hi his IH]; intros [|hi' his'] lo lo' Hl W W' S T F F'; try discriminate; [reflexivity|]. cbn [map2 iswt_spec].
  assert (El : List.length (map2 (tlin a b) his his') = List.length his) by (rewrite map2_length; cbn in Hl; lia). rewrite El. replace (List.length his') with (List.length his) by (cbn in Hl; lia).
  inversion F as [|? ? (A1 & A2 & A3) F1]; subst. inversion F' as [|? ? (B1 & B2 & B3) F1']; subst.
  set (d := (2 ^ Z.of_nat (List.length his))%Z).
  assert (Q : forall l g, wf l -> wf g -> shp l = shp lo -> shp g = shp lo -> ttag l = ttag lo -> ttag g = ttag lo -> wf (iswt_level half rlo rhi d ax l g) /\ shp (iswt_level half rlo rhi d ax l g) = shp lo /\ ttag (iswt_level half rlo rhi d ax l g) = ttag lo).
  { intros l g L1 L2 L3 L4 L5 L6. unfold iswt_level. destruct (circ_axis_facts rlo (Z.of_nat (List.length rlo / 2) - 1) d ax l) as (C1 & C2 & C3). destruct (circ_axis_facts rhi (Z.of_nat (List.length rhi / 2) - 1) d ax g) as (D1 & D2 & D3).
    split; [apply wf_tlin; auto; congruence|]. split; [cbn [tlin shp]; congruence|cbn [tlin ttag]; congruence]. }
  assert (E : iswt_level half rlo rhi d ax (tlin a b lo lo') (tlin a b hi hi') = tlin a b (iswt_level half rlo rhi d ax lo hi) (iswt_level half rlo rhi d ax lo' hi')).
  { unfold iswt_level. rewrite !circ_axis_lin by (auto; congruence).
    repeat match goal with |- context [circ_axis ?f ?c ?d ?ax ?t] => let H := fresh in pose proof (circ_axis_facts f c d ax t) as H; generalize dependent (circ_axis f c d ax t); intros end.
    repeat match goal with H : _ /\ _ |- _ => destruct H end. apply tlin_tlin; auto; congruence. }
  rewrite E. destruct (Q lo hi) as (Q1 & Q2 & Q3); auto. destruct (Q lo' hi') as (R1 & R2 & R3); auto.
  apply IH; auto; try congruence; [eapply Forall_impl; [|exact F1]|eapply Forall_impl; [|exact F1']]; cbv beta; intros t (X1 & X2 & X3); repeat split; congruence.
Qed.
(** iswt(a c + b c') = a iswt(c) + b iswt(c') *)
Theorem C66_iswt half (lo lo' : tensor K) his his' w L h axis a b : swt_input lo h axis -> wf lo' -> shp lo' = shp lo -> ttag lo' = ttag lo ->
  Forall (fun t => wf t /\ shp t = shp lo /\ ttag t = ttag lo) his -> Forall (fun t => wf t /\ shp t = shp lo /\ ttag t = ttag lo) his' -> List.length his' = List.length his ->
  List.length (rec_lo w) = L -> List.length (rec_hi w) = L -> (2 <= L)%nat -> Nat.even L = true ->
  (L = 2 \/ nth (norm_axis (rank lo) axis) (shp lo) 0 mod 2 ^ (List.length his - 1) = 0)%nat ->
  exists y y', iswt half (map PT (lo :: his)) w h = Ok y /\ iswt half (map PT (lo' :: his')) w h = Ok y' /\
    iswt half (pc_items (pc_lin a b (mkPC true (map PT (lo :: his))) (mkPC true (map PT (lo' :: his'))))) w h = Ok (tlin a b y y').
Proof.
  intros Hi W' S T F F' Hl H1 H2 HL He Hdiv. pose proof Hi as (W & Hd & Hh & Hax & Hn).
  assert (Hr : rank lo' = rank lo) by (unfold rank; rewrite S; reflexivity).
  assert (Hi' : swt_input lo' h axis) by (split; [exact W'|]; split; [unfold tdtype; rewrite T; exact Hd|]; split; [exact Hh|]; rewrite Hr, S; auto).
  eexists. eexists. split; [apply (C24_iswt_formula half lo his w L h axis); auto|]. split.
  { apply (C24_iswt_formula half lo' his' w L h axis); auto; [|rewrite Hr, S, Hl; exact Hdiv]. rewrite S, T. exact F'. }
  rewrite pc_lin_list. cbn [pc_items map2].
  rewrite (C24_iswt_formula half (tlin a b lo lo') (map2 (tlin a b) his his') w L h axis); auto.
  - f_equal. change (rank (tlin a b lo lo')) with (rank lo). rewrite Hr. apply iswt_spec_lin; auto.
  - split; [apply wf_tlin; assumption|]. repeat split; assumption || apply Hax.
  - clear - F F' Hl. revert his' F' Hl. induction his as [|t his IH]; intros [|t' his'] F' Hl; try discriminate; [constructor|]. cbn [map2]. inversion F as [|? ? (A1 & A2 & A3) F1]; subst. inversion F' as [|? ? (B1 & B2 & B3) F1']; subst.
    constructor; [split; [apply wf_tlin; auto; congruence|split; assumption]|]. apply IH; auto.
  - replace (List.length (map2 (tlin a b) his his')) with (List.length his) by (rewrite map2_length; lia). exact Hdiv.
Qed.

(** ** packets *)
Lemma child_map2 (f : tensor K -> tensor K -> tensor K) letters : forall l l' c u u', child letters l c = Some u -> child letters l' c = Some u' -> child letters (map2 f l l') c = Some (f u u').
Proof.
  induction letters as [|q letters IH]; intros [|v l] [|v' l'] c u u' H H'; try discriminate. cbn [child map2] in *. destruct (Ascii.eqb q c); [congruence|]. eapply IH; eassumption.
Qed.
Lemma node_lin (f : tensor K -> result (list (tensor K))) letters a b x y :
  wf x -> wf y -> shp y = shp x ->
  (forall t ch, wf t -> f t = Ok ch -> Forall wf ch) ->
  (forall t t' ch ch', wf t -> wf t' -> shp t' = shp t -> f t = Ok ch -> f t' = Ok ch' -> map (fun c => shp c) ch' = map (fun c => shp c) ch /\ f (tlin a b t t') = Ok (map2 (tlin a b) ch ch')) ->
  forall p v v', node_at f letters x p = Ok v -> node_at f letters y p = Ok v' ->
  wf v /\ wf v' /\ shp v' = shp v /\ node_at f letters (tlin a b x y) p = Ok (tlin a b v v').
Proof.
  intros Wx Wy Sxy Hwf Hlin. unfold node_at. intros p. induction (rev p) as [|c up IH]; intros v v' H H'; cbn [node_up] in *.
  - injection H as <-. injection H' as <-. auto.
  - destruct (existsb (Ascii.eqb c) letters); [|discriminate].
    apply rbind_ok in H as (u & Hu & H). apply rbind_ok in H as (ch & Hch & H). apply rbind_ok in H' as (u' & Hu' & H'). apply rbind_ok in H' as (ch' & Hch' & H').
    destruct (IH u u' Hu Hu') as (W & W' & S & E). rewrite E. cbn [rbind]. destruct (Hlin u u' ch ch' W W' S Hch Hch') as (Sc & El). rewrite El. cbn [rbind].
    destruct (child letters ch c) as [g|] eqn:Eg; [|discriminate]. destruct (child letters ch' c) as [g'|] eqn:Eg'; [|discriminate]. injection H as <-. injection H' as <-.
    rewrite (child_map2 (tlin a b) letters ch ch' c g g' Eg Eg').
    assert (P : forall letters (l l' : list (tensor K)) c g g', Forall wf l -> Forall wf l' -> map (@shp K) l' = map (@shp K) l -> child letters l c = Some g -> child letters l' c = Some g' -> wf g /\ wf g' /\ shp g' = shp g).
    { clear. induction letters as [|q letters IH]; intros [|t l] [|t' l'] c g g' F F' M E E'; try discriminate. cbn [child] in *. inversion F as [|? ? F1 F2]; inversion F' as [|? ? F1' F2']; subst. pose proof (f_equal (fun z => hd nil z) M) as M1. pose proof (f_equal (@tl _) M) as M2. cbn [hd tl map] in M1, M2. destruct (Ascii.eqb q c); [assert (g = t) by congruence; assert (g' = t') by congruence; subst; auto|]. exact (IH l l' c g g' F2 F2' M2 E E'). }
    destruct (P letters ch ch' c g g') as (P1 & P2 & P3); auto; [apply (Hwf u); auto|apply (Hwf u'); auto].
Qed.
(** the node of every path (packet_read is what the packet objects return for a key, C26): linear in the signal *)
Theorem C66_packets_1d w m L axis x y p v v' a b : even_bank w L -> wf x -> wf y -> shp y = shp x ->
  node_at (dec1 w (mode_name m) axis) ["a"; "d"]%char x p = Ok v -> node_at (dec1 w (mode_name m) axis) ["a"; "d"]%char y p = Ok v' ->
  node_at (dec1 w (mode_name m) axis) ["a"; "d"]%char (tlin a b x y) p = Ok (tlin a b v v').
Proof.
  intros Hb Wx Wy S H H'. apply (node_lin (dec1 w (mode_name m) axis) ["a"; "d"]%char a b x y Wx Wy S) with (p := p) (v := v) (v' := v'); auto.
  - intros t ch Wt E. destruct (dec1_inv w m L axis t ch Hb Wt E) as (_ & _ & _ & ->). repeat constructor; apply wf_make.
  - intros t t' ch ch' Wt Wt' St E E'. destruct (dec1_inv w m L axis t ch Hb Wt E) as (Hd & Hax & Ha & ->). destruct (dec1_inv w m L axis t' ch' Hb Wt' E') as (_ & _ & _ & ->).
    assert (Hr : rank t' = rank t) by (unfold rank; rewrite St; reflexivity). rewrite Hr. split.
    + cbn [map]. rewrite !(fun fs => proj2 (dwt_axes_lin fs m [norm_axis (rank t) axis] t t' a b Wt Wt' St)). reflexivity.
    + rewrite (dec1_ok w m L axis (tlin a b t t') Hb (wf_tlin _ _ _ _ Wt Wt' St) Hd Hax Ha). cbn [map2]. change (rank (tlin a b t t')) with (rank t).
      rewrite !(fun fs => proj1 (dwt_axes_lin fs m [norm_axis (rank t) axis] t t' a b Wt Wt' St)). reflexivity.
Qed.
Theorem C66_packets_2d w m L axes separable x y p v v' a b : even_bank w L -> wf x -> wf y -> shp y = shp x -> List.length axes = 2%nat ->
  node_at (dec2 w (mode_name m) axes separable) ["a"; "h"; "v"; "d"]%char x p = Ok v -> node_at (dec2 w (mode_name m) axes separable) ["a"; "h"; "v"; "d"]%char y p = Ok v' ->
  node_at (dec2 w (mode_name m) axes separable) ["a"; "h"; "v"; "d"]%char (tlin a b x y) p = Ok (tlin a b v v').
Proof.
  intros Hb Wx Wy S Hla H H'. apply (node_lin (dec2 w (mode_name m) axes separable) ["a"; "h"; "v"; "d"]%char a b x y Wx Wy S) with (p := p) (v := v) (v' := v'); auto.
  - intros t ch Wt E. destruct (dec2_inv w m L axes separable t ch Hb Wt Hla E) as (_ & _ & _ & ->). repeat constructor; apply wf_make.
  - intros t t' ch ch' Wt Wt' St E E'. destruct (dec2_inv w m L axes separable t ch Hb Wt Hla E) as (Hd & Hax & Ha & ->). destruct (dec2_inv w m L axes separable t' ch' Hb Wt' Hla E') as (_ & _ & _ & ->).
    assert (Hr : rank t' = rank t) by (unfold rank; rewrite St; reflexivity). rewrite Hr. split.
    + cbn [map]. rewrite !(fun fs => proj2 (dwt_axes_lin fs m (map (norm_axis (rank t)) axes) t t' a b Wt Wt' St)). reflexivity.
    + rewrite (dec2_ok w m L axes separable (tlin a b t t') Hb (wf_tlin _ _ _ _ Wt Wt' St) Hd Hla Hax Ha). cbn [map map2]. change (rank (tlin a b t t')) with (rank t).
      rewrite !(fun fs => proj1 (dwt_axes_lin fs m (map (norm_axis (rank t)) axes) t t' a b Wt Wt' St)). reflexivity.
Qed.

(** ** boundary wavelets *)
Lemma bwn_band_lin M m nax k x y a b : wf x -> wf y -> shp y = shp x ->
  bwn_band M m nax k (tlin a b x y) = tlin a b (bwn_band M m nax k x) (bwn_band M m nax k y) /\ shp (bwn_band M m nax k y) = shp (bwn_band M m nax k x).
Proof.
  intros Hx Hy Hs. apply along_lin; auto. intros s X Y Z0 ks H. unfold bwn_op. apply sumI_lin. intros js. rewrite (ext_get_lin m s X Y Z0 a b) by exact H. ring.
Qed.
Lemma bwn_approx_lin M m nax j a b : forall x y, wf x -> wf y -> shp y = shp x ->
  bwn_approx M m nax j (tlin a b x y) = tlin a b (bwn_approx M m nax j x) (bwn_approx M m nax j y) /\ shp (bwn_approx M m nax j y) = shp (bwn_approx M m nax j x) /\
  wf (bwn_approx M m nax j x) /\ wf (bwn_approx M m nax j y).
Proof.
  unfold bwn_approx. induction j as [|j IH]; intros x y Hx Hy Hs; [auto|]. rewrite !iter_r. destruct (bwn_band_lin M m nax (repeat false (List.length nax)) x y a b Hx Hy Hs) as [E1 E2]. rewrite E1. apply IH; [apply wf_make|apply wf_make|exact E2].
Qed.
Lemma bwn2_lin M m nax ks J x y a b : wf x -> wf y -> shp y = shp x ->
  pc_lin a b (bwn2_coeffs M m nax ks J x) (bwn2_coeffs M m nax ks J y) = bwn2_coeffs M m nax ks J (tlin a b x y).
Proof.
  intros Hx Hy Hs. unfold pc_lin, bwn2_coeffs. cbn [pc_items pc_is_list map2 pv_lin]. f_equal. f_equal; [f_equal; symmetry; apply bwn_approx_lin; assumption|].
  rewrite map2_maps'. apply map_ext. intros j. cbn [pv_lin]. f_equal. rewrite map2_maps'. apply map_ext. intros k.
  destruct (bwn_approx_lin M m nax j a b x y Hx Hy Hs) as (E & E2 & W1 & W2). rewrite E. symmetry. apply bwn_band_lin; assumption.
Qed.
Lemma bwn3_lin M m nax ks J x y a b : wf x -> wf y -> shp y = shp x ->
  pc_lin a b (bwn3_coeffs M m nax ks J x) (bwn3_coeffs M m nax ks J y) = bwn3_coeffs M m nax ks J (tlin a b x y).
Proof.
  intros Hx Hy Hs. unfold pc_lin, bwn3_coeffs. cbn [pc_items pc_is_list map2 pv_lin]. f_equal. f_equal; [f_equal; symmetry; apply bwn_approx_lin; assumption|].
  rewrite map2_maps'. apply map_ext. intros j. cbn [pv_lin]. f_equal. rewrite map2_maps'. apply map_ext. intros k. cbn [fst snd]. f_equal.
  destruct (bwn_approx_lin M m nax j a b x y Hx Hy Hs) as (E & E2 & W1 & W2). rewrite E. symmetry. apply bwn_band_lin; assumption.
Qed.

Variable LA : linalg K.
Hypothesis HD : domain K.
Hypothesis HR : formally_real K.
Variables (w : wavelet K) (L : nat) (method : string) (m : mode).
Hypothesis HLA : la_ok LA method.
Hypothesis B : orthogonal_bank L (dec_lo w) (dec_hi w) (rec_lo w) (rec_hi w).
Hypothesis HI : boundary_independent L (dec_lo w) (dec_hi w).
Let odd := Some (mode_name m).
Let HA g : mats_ok LA w method L g := bank_mats LA HD HR g w L method HLA B HI.

Theorem C66_matrix_2d_nonseparable level axes o x y ox oy cx cy a b : wf x -> wf y -> shp y = shp x -> ttag y = ttag x ->
  new_mwavedecn 2 w level (AxSeq axes) method odd false = Ok o -> mw2_call LA o x = (ox, Ok cx) -> mw2_call LA o y = (oy, Ok cy) ->
  snd (mw2_call LA o (tlin a b x y)) = Ok (pc_lin a b cx cy).
Proof using All.
  intros Wx Wy S T Ho Ex Ey. apply new_mwn_inv in Ho as [Hl ->].
  destruct (non_outcome LA HD HR w L method HLA B HI m level axes x ox cx Wx Hl Ex) as (Hd & Hax & lev & Hlev & Hb & ->).
  destruct (non_outcome LA HD HR w L method HLA B HI m level axes y oy cy Wy Hl Ey) as (_ & _ & lev' & Hlev' & _ & ->).
  assert (Hr : rank y = rank x) by (unfold rank; rewrite S; reflexivity). rewrite Hr, S in Hlev'. assert (lev' = lev) by congruence. subst lev'.
  destruct (non_call LA HD HR w L method HLA B HI m level axes (tlin a b x y) lev) as [o' E]; auto; [apply wf_tlin; assumption|].
  unfold odd. rewrite E. cbn [snd]. rewrite Hr, S, T. f_equal. symmetry. apply bwn2_lin; assumption.
Qed.
Theorem C66_matrix_3d level axes o x y ox oy cx cy a b : wf x -> wf y -> shp y = shp x -> ttag y = ttag x ->
  new_mwavedecn 3 w level (AxSeq axes) method odd true = Ok o -> mw3_call LA o x = (ox, Ok cx) -> mw3_call LA o y = (oy, Ok cy) ->
  snd (mw3_call LA o (tlin a b x y)) = Ok (pc_lin a b cx cy).
Proof using All.
  intros Wx Wy S T Ho Ex Ey. apply new_mwn_inv in Ho as [Hl ->].
  assert (Q : forall t ot ct, wf t -> mw3_call LA (mkMWN w level axes method odd true None [] [] false []) t = (ot, Ok ct) -> is_dtype_supported (tdtype t) = true /\ axes_ok (rank t) axes /\
     let nax := map (norm_axis (rank t)) axes in let s := gather nax 0%nat (shp t) in exists lev, wn_lev w level s = Ok lev /\ ct = bwn3_coeffs (tprod (Bm LA w method (ttag t))) m nax bands3 (bwn_levels (Z.to_nat lev) L s) t).
  { intros t ot ct Wt Et. destruct (mw3_call_inv LA (mkMWN w level axes method odd true None [] [] false []) ot axes t ct Wt eq_refl Hl Et) as (Hd & Hax & lev & Hlev). cbn [wn_wav wn_level] in Hlev.
    split; [exact Hd|]. split; [exact Hax|]. exists lev. split; [exact Hlev|]. destruct (call3 LA HD HR w L method m HLA B HI level axes t lev) as [o' E]; auto. unfold odd in Et. rewrite E in Et. apply (f_equal snd) in Et. cbn [snd] in Et. apply ok_inj in Et. congruence. }
  destruct (Q x ox cx Wx Ex) as (Hd & Hax & lev & Hlev & ->). destruct (Q y oy cy Wy Ey) as (_ & _ & lev' & Hlev' & ->).
  assert (Hr : rank y = rank x) by (unfold rank; rewrite S; reflexivity). rewrite Hr, S in Hlev'. assert (lev' = lev) by congruence. subst lev'.
  destruct (call3 LA HD HR w L method m HLA B HI level axes (tlin a b x y) lev) as [o' E]; auto; [apply wf_tlin; assumption|].
  unfold odd. rewrite E. cbn [snd]. rewrite Hr, S, T. f_equal. symmetry. apply bwn3_lin; assumption.
Qed.
Lemma sep_outcome level axes x o' c : wf x -> List.length axes = 2%nat -> mw2_call LA (mkMWN w level axes method odd true None [] [] false []) x = (o', Ok c) ->
  let nax := map (norm_axis (rank x)) axes in let s := gather nax 0%nat (shp x) in
  is_dtype_supported (tdtype x) = true /\ axes_ok (rank x) axes /\ exists lev, wn_lev w level s = Ok lev /\ ((0 < bwn_levels (Z.to_nat lev) L s)%nat -> (0 < prodl (fsz nax (shp x)))%nat) /\
    c = bwn2_coeffs (tprod (Bm LA w method (ttag x))) m nax [bLH; bHL; bHH] (bwn_levels (Z.to_nat lev) L s) x.
Proof using All.
  intros Hw Hl Hc nax s. destruct (mw2_call_inv LA (mkMWN w level axes method odd true None [] [] false []) o' axes x c Hw eq_refl Hl Hc) as (Hdt & Hax & lev & Hlev). cbn [wn_wav wn_level] in Hlev.
  split; [exact Hdt|]. split; [exact Hax|]. exists lev. split; [exact Hlev|].
  assert (Hb : (0 < bwn_levels (Z.to_nat lev) L s)%nat -> (0 < prodl (fsz nax (shp x)))%nat).
  { intros HJ. destruct (Nat.eq_dec (prodl (fsz nax (shp x))) 0) as [E0|E0]; [|lia]. destruct (sep_empty LA HD HR w L method m HLA B HI level axes x lev Hw Hdt Hl Hax Hlev HJ E0) as (o2 & e & E). unfold odd in Hc. congruence. }
  split; [exact Hb|]. destruct (sep_call LA HD HR w L method m HLA B HI level axes x lev Hw Hdt Hl Hax Hlev Hb) as [o2 E]. unfold odd in Hc. rewrite E in Hc. apply (f_equal snd) in Hc. cbn [snd] in Hc. apply ok_inj in Hc. symmetry. exact Hc.
Qed.
Theorem C66_matrix_2d level axes o x y ox oy cx cy a b : wf x -> wf y -> shp y = shp x -> ttag y = ttag x ->
  new_mwavedecn 2 w level (AxSeq axes) method odd true = Ok o -> mw2_call LA o x = (ox, Ok cx) -> mw2_call LA o y = (oy, Ok cy) ->
  snd (mw2_call LA o (tlin a b x y)) = Ok (pc_lin a b cx cy).
Proof using All.
  intros Wx Wy S T Ho Ex Ey. apply new_mwn_inv in Ho as [Hl ->].
  destruct (sep_outcome level axes x ox cx Wx Hl Ex) as (Hd & Hax & lev & Hlev & Hb & ->).
  destruct (sep_outcome level axes y oy cy Wy Hl Ey) as (_ & _ & lev' & Hlev' & _ & ->).
  assert (Hr : rank y = rank x) by (unfold rank; rewrite S; reflexivity). rewrite Hr, S in Hlev'. assert (lev' = lev) by congruence. subst lev'.
  destruct (sep_call LA HD HR w L method m HLA B HI level axes (tlin a b x y) lev) as [o' E]; auto; [apply wf_tlin; assumption|].
  unfold odd. rewrite E. cbn [snd]. rewrite Hr, S, T. f_equal. symmetry. apply bwn2_lin; assumption.
Qed.
Lemma bw_coeffs_lin (A : nat -> nat -> nat -> K) ax J x y a b : wf x -> wf y -> shp y = shp x -> (ax < rank x)%nat ->
  bw_coeffs A m ax J (tlin a b x y) = map2 (tlin a b) (bw_coeffs A m ax J x) (bw_coeffs A m ax J y).
Proof using All.
  intros Wx Wy S Hax. assert (Hr : rank y = rank x) by (unfold rank; rewrite S; reflexivity).
  unfold bw_coeffs. cbn [map2]. rewrite map2_maps'.
  assert (Q : forall t j, (ax < rank t)%nat -> bw_approx A m ax j t = bwn_approx (tprod A) m [ax] j t) by (intros; symmetry; apply bw_approx1; assumption).
  assert (Qr : forall t j, (ax < rank t)%nat -> (ax < rank (bw_approx A m ax j t))%nat).
  { intros t j Ht. unfold bw_approx. induction j as [|j IH]; [exact Ht|]. cbn [Nat.iter nat_rect]. fold (Nat.iter j (bw_lo A m ax) t). unfold rank in *. rewrite bw_lo_shp, updn_length. exact IH. }
  f_equal.
  - rewrite !Q by (rewrite ?Hr; exact Hax). apply bwn_approx_lin; assumption.
  - apply map_ext. intros j. destruct (bwn_approx_lin (tprod A) m [ax] j a b x y Wx Wy S) as (E & E2 & W1 & W2). rewrite <- !Q in * by (rewrite ?Hr; exact Hax).
    assert (R1 : (ax < rank (bw_approx A m ax j x))%nat) by (apply Qr; exact Hax). assert (R2 : (ax < rank (bw_approx A m ax j y))%nat) by (apply Qr; rewrite Hr; exact Hax).
    rewrite E. rewrite <- !(bw_band1 A m ax true) by assumption. apply bwn_band_lin; assumption.
Qed.
Lemma mat1_outcome level axis x o' c : wf x -> mw_call LA (mkMW w level axis method odd None [] [] false []) x = (o', Ok c) ->
  let ax := norm_axis (rank x) axis in let n := even_up (nth ax (shp x) 0%nat) in
  is_dtype_supported (tdtype x) = true /\ axis_ok (rank x) axis /\ evenable m (nth ax (shp x) 0%nat) /\ exists lev, mw_lev w level n = Ok lev /\
    c = mkPC true (map PT (bw_coeffs (Bm LA w method (ttag x)) m ax (bw_levels (Z.to_nat lev) L n) (ext_even m [ax] x))).
Proof using All.
  intros Hw Hc ax n. unfold odd in Hc. destruct (mw_call_inv LA (mkMW w level axis method (Some (mode_name m)) None [] [] false []) o' x m _ Hw eq_refl Hc) as (Hdt & Hax & He & lev & Hlev). cbn [mw_axis mw_wav mw_level] in *.
  split; [exact Hdt|]. split; [exact Hax|]. split; [exact He|]. exists lev. split; [exact Hlev|].
  destruct (mw_call_ok LA w method m L (ttag x) (HA _) (ob_two _ _ _ _ _ B) (ob_len_lo _ _ _ _ _ B) (bank_rl w L B) (fun n => boundary_s_transpose LA (ttag x) w n L method B) (mkMW w level axis method (Some (mode_name m)) None [] [] false []) x axis (Some (mode_name m)) lev) as (o2 & E & _); auto.
  - apply translate_mode.
  - left. reflexivity.
  - rewrite E in Hc. apply (f_equal snd) in Hc. cbn [snd] in Hc. apply ok_inj in Hc. symmetry. exact Hc.
Qed.
Theorem C66_matrix_1d level axis o x y ox oy cx cy a b : wf x -> wf y -> shp y = shp x -> ttag y = ttag x ->
  new_mwavedec w level (AxInt axis) method odd = Ok o -> mw_call LA o x = (ox, Ok cx) -> mw_call LA o y = (oy, Ok cy) ->
  snd (mw_call LA o (tlin a b x y)) = Ok (pc_lin a b cx cy).
Proof using All.
  intros Wx Wy S T Ho Ex Ey. apply new_mw_inv in Ho. subst o.
  destruct (mat1_outcome level axis x ox cx Wx Ex) as (Hd & Hax & He & lev & Hlev & ->).
  destruct (mat1_outcome level axis y oy cy Wy Ey) as (_ & _ & _ & lev' & Hlev' & ->).
  assert (Hr : rank y = rank x) by (unfold rank; rewrite S; reflexivity). rewrite Hr, S in Hlev'. assert (lev' = lev) by congruence. subst lev'.
  unfold odd. destruct (mw_call_ok LA w method m L (ttag x) (HA _) (ob_two _ _ _ _ _ B) (ob_len_lo _ _ _ _ _ B) (bank_rl w L B) (fun n => boundary_s_transpose LA (ttag x) w n L method B) (mkMW w level axis method (Some (mode_name m)) None [] [] false []) (tlin a b x y) axis (Some (mode_name m)) lev) as (o2 & E & _); auto.
  - apply translate_mode.
  - apply wf_tlin; assumption.
  - left. reflexivity.
  - rewrite E. cbn [snd]. change (rank (tlin a b x y)) with (rank x). change (shp (tlin a b x y)) with (shp x). rewrite Hr, S, T. f_equal. rewrite pc_lin_list. do 2 f_equal.
    pose proof (norm_axis_lt _ _ Hax) as Ha. set (ax := norm_axis (rank x) axis) in *.
    assert (El : ext_even m [ax] (tlin a b x y) = tlin a b (ext_even m [ax] x) (ext_even m [ax] y) /\ shp (ext_even m [ax] y) = shp (ext_even m [ax] x)).
    { apply along_lin; auto. intros s X Y Z0 k H. apply ext_get_lin. exact H. }
    destruct El as [E1 E2]. rewrite E1. apply bw_coeffs_lin; [apply wf_make|apply wf_make|exact E2|]. unfold ext_even. rewrite rank_along. exact Ha.
Qed.
(** the reconstructions: MatrixWaverec(a c + b c') = a MatrixWaverec(c) + b MatrixWaverec(c') for all containers of matching sizes *)
Theorem C66_matrix_rec_2d axes r g sh s u u' levels levels' a b : new_mwaverecn 2 w (AxSeq axes) method true = Ok r ->
  axes_ok (List.length sh) axes -> is_dtype_supported (fst g) = true -> List.length s = 2%nat ->
  let nax := map (norm_axis (List.length sh)) axes in let J := List.length levels in
  (forall d, (d < List.length sh)%nat -> ~ In d nax -> (0 < nth d sh 0)%nat) ->
  (0 < J)%nat -> Forall (fun n => (L <= n / 2 ^ (J - 1))%nat) s ->
  coeff_sizes nax g sh s 3 u levels -> coeff_sizes nax g sh s 3 u' levels' -> List.length levels' = J ->
  let c u levels := mkPC false (PT u :: map (fun l => PTup l) levels) in
  exists x x', snd (mr2_call LA r (pc_items (c u levels))) = Ok x /\ snd (mr2_call LA r (pc_items (c u' levels'))) = Ok x' /\
    snd (mr2_call LA r (pc_items (pc_lin a b (c u levels) (c u' levels')))) = Ok (tlin a b x x').
Proof using All.
  intros Hr Hax Hdt Hs nax J Hb HJ HLs Hc Hc' EJ c.
  destruct (C65_onto_2d LA HD HR w L method m HLA B HI axes r g sh s u levels) as (x & E1 & X1 & X2 & X3 & E2); auto.
  destruct (C65_onto_2d LA HD HR w L method m HLA B HI axes r g sh s u' levels') as (x' & E1' & X1' & X2' & X3' & E2'); auto; try (rewrite EJ; assumption).
  exists x, x'. split; [exact E1|]. split; [exact E1'|]. rewrite EJ in E2'. fold J in E2, E2'. fold nax in X3, X3'.
  assert (Hrx : rank x = List.length sh) by (unfold rank; rewrite X3; apply upds_length).
  pose proof Hr as Hr0. apply new_mrn_inv in Hr0 as [Hl _].
  assert (Hn : List.length nax = 2%nat) by (unfold nax; rewrite map_length; exact Hl).
  assert (Hgx : gather nax 0%nat (shp x) = s) by (rewrite X3; destruct (good_axes_ok _ _ Hax); apply gather_upds; [assumption|congruence|assumption]).
  assert (Hbn : batch_nonempty nax x) by (intros d Hd Hnd; rewrite X3 in Hd |- *; rewrite upds_length in Hd; rewrite nth_upds_notin by exact Hnd; apply Hb; assumption).
  destruct (proj2 (C43_accepts LA HD HR w L method m HLA B HI (Some (Z.of_nat J)) axes x X1 Hl)) as (o & o2 & c2 & Ho & Hc2).
  { split; [unfold tdtype; rewrite X2; exact Hdt|]. rewrite Hrx. split; [exact Hax|]. exists (Z.of_nat J). split; [split; [reflexivity|lia]|]. right. exact Hbn. }
  pose proof Ho as Ho'. destruct (E2 o Ho) as [o' Ecx]. destruct (E2' o Ho) as [o'' Ecx'].
  assert (Sx : shp x' = shp x) by congruence. assert (Tx : ttag x' = ttag x) by congruence.
  pose proof (C66_matrix_2d (Some (Z.of_nat J)) axes o x x' o' o'' _ _ a b X1 X1' Sx Tx Ho Ecx Ecx') as El. fold (c u levels) in El. fold (c u' levels') in El.
  destruct (mw2_call LA o (tlin a b x x')) as [oz rz] eqn:Ez. cbn [snd] in El. subst rz.
  pose proof (wf_tlin a b x x' X1 X1' Sx) as Wz.
  pose proof (C43_reconstruction LA HD HR w L method m HLA B HI (Some (Z.of_nat J)) axes o (tlin a b x x') oz _ r Wz Ho Ez Hr) as Er. cbv zeta in Er. change (rank (tlin a b x x')) with (rank x) in Er. rewrite Hrx in Er. fold nax in Er.
  assert (Hlen : (1 < List.length (pc_items (pc_lin a b (c u levels) (c u' levels'))))%nat) by (unfold pc_lin, c; cbn [pc_items map2 List.length]; rewrite map2_length, !map_length, EJ; fold J; lia).
  rewrite (proj2 (Nat.eqb_neq _ 1)) in Er by lia. specialize (Er ltac:(intros Hq; lia)).
  rewrite Er. f_equal. apply ext_even_id; [exact Wz|change (rank (tlin a b x x')) with (rank x); rewrite Hrx; apply good_axes_ok, Hax|]. change (shp (tlin a b x x')) with (shp x). rewrite Hgx.
  pose proof (level_even J s 0 (proj1 Hc) HJ) as He. cbn [Nat.pow] in He. rewrite (map_ext (fun n => n / 1)%nat (fun n => n)) in He by (intros; apply Nat.div_1_r). rewrite map_id in He. exact He.
Qed.
Theorem C66_matrix_rec_2d_nonseparable axes r g sh s u u' levels levels' a b : new_mwaverecn 2 w (AxSeq axes) method false = Ok r ->
  axes_ok (List.length sh) axes -> is_dtype_supported (fst g) = true -> List.length s = 2%nat ->
  let nax := map (norm_axis (List.length sh)) axes in let J := List.length levels in
  (forall d, (d < List.length sh)%nat -> ~ In d nax -> (0 < nth d sh 0)%nat) ->
  (0 < J)%nat -> Forall (fun n => (L <= n / 2 ^ (J - 1))%nat) s ->
  coeff_sizes nax g sh s 3 u levels -> coeff_sizes nax g sh s 3 u' levels' -> List.length levels' = J ->
  let c u levels := mkPC false (PT u :: map (fun l => PTup l) levels) in
  exists x x', snd (mr2_call LA r (pc_items (c u levels))) = Ok x /\ snd (mr2_call LA r (pc_items (c u' levels'))) = Ok x' /\
    snd (mr2_call LA r (pc_items (pc_lin a b (c u levels) (c u' levels')))) = Ok (tlin a b x x').
Proof using All.
  intros Hr Hax Hdt Hs nax J Hb HJ HLs Hc Hc' EJ c.
  destruct (C65_onto_2d_nonseparable LA HD HR w L method m HLA B HI axes r g sh s u levels) as (x & E1 & X1 & X2 & X3 & E2); auto.
  destruct (C65_onto_2d_nonseparable LA HD HR w L method m HLA B HI axes r g sh s u' levels') as (x' & E1' & X1' & X2' & X3' & E2'); auto; try (rewrite EJ; assumption).
  exists x, x'. split; [exact E1|]. split; [exact E1'|]. rewrite EJ in E2'. fold J in E2, E2'. fold nax in X3, X3'.
  assert (Hrx : rank x = List.length sh) by (unfold rank; rewrite X3; apply upds_length).
  pose proof Hr as Hr0. apply new_mrn_inv in Hr0 as [Hl _].
  assert (Hn : List.length nax = 2%nat) by (unfold nax; rewrite map_length; exact Hl).
  assert (Hgx : gather nax 0%nat (shp x) = s) by (rewrite X3; destruct (good_axes_ok _ _ Hax); apply gather_upds; [assumption|congruence|assumption]).
  assert (Hbn : batch_nonempty nax x) by (intros d Hd Hnd; rewrite X3 in Hd |- *; rewrite upds_length in Hd; rewrite nth_upds_notin by exact Hnd; apply Hb; assumption).
  assert (EJL : bwn_levels J L s = J) by (apply levels_fits_n, fits_of; [apply Hc|exact HLs]).
  destruct (proj2 (C43_nonseparable_accepts LA HD HR w L method HLA B HI m (Some (Z.of_nat J)) axes x X1 Hl)) as (o & o2 & c2 & Ho & Hc2).
  { split; [unfold tdtype; rewrite X2; exact Hdt|]. rewrite Hrx. split; [exact Hax|]. exists (Z.of_nat J). split; [split; [reflexivity|lia]|]. fold nax. rewrite Hgx, Nat2Z.id, EJL. auto. }
  pose proof Ho as Ho'. destruct (E2 o Ho) as [o' Ecx]. destruct (E2' o Ho) as [o'' Ecx'].
  assert (Sx : shp x' = shp x) by congruence. assert (Tx : ttag x' = ttag x) by congruence.
  pose proof (C66_matrix_2d_nonseparable (Some (Z.of_nat J)) axes o x x' o' o'' _ _ a b X1 X1' Sx Tx Ho Ecx Ecx') as El. fold (c u levels) in El. fold (c u' levels') in El.
  destruct (mw2_call LA o (tlin a b x x')) as [oz rz] eqn:Ez. cbn [snd] in El. subst rz.
  pose proof (wf_tlin a b x x' X1 X1' Sx) as Wz.
  pose proof (C43_nonseparable_reconstruction LA HD HR w L method HLA B HI m (Some (Z.of_nat J)) axes o (tlin a b x x') oz _ r Wz Ho Ez Hr) as Er. cbv zeta in Er. change (rank (tlin a b x x')) with (rank x) in Er. rewrite Hrx in Er. fold nax in Er.
  
  rewrite Er. f_equal. apply ext_even_id; [exact Wz|change (rank (tlin a b x x')) with (rank x); rewrite Hrx; apply good_axes_ok, Hax|]. change (shp (tlin a b x x')) with (shp x). rewrite Hgx.
  pose proof (level_even J s 0 (proj1 Hc) HJ) as He. cbn [Nat.pow] in He. rewrite (map_ext (fun n => n / 1)%nat (fun n => n)) in He by (intros; apply Nat.div_1_r). rewrite map_id in He. exact He.
Qed.
Theorem C66_matrix_rec_3d axes r g sh s u u' levels levels' a b : new_mwaverecn 3 w (AxSeq axes) method true = Ok r ->
  axes_ok (List.length sh) axes -> is_dtype_supported (fst g) = true -> List.length s = 3%nat ->
  let nax := map (norm_axis (List.length sh)) axes in let J := List.length levels in
  (0 < J)%nat -> Forall (fun n => (L <= n / 2 ^ (J - 1))%nat) s ->
  coeff_sizes nax g sh s 7 u levels -> coeff_sizes nax g sh s 7 u' levels' -> List.length levels' = J ->
  let c u levels := mkPC false (PT u :: map (fun l => PDict (combine (map band_key bands3) l)) levels) in
  exists x x', snd (fst (mr3_call LA r (pc_items (c u levels)))) = Ok x /\ snd (fst (mr3_call LA r (pc_items (c u' levels')))) = Ok x' /\
    snd (fst (mr3_call LA r (pc_items (pc_lin a b (c u levels) (c u' levels'))))) = Ok (tlin a b x x').
Proof using All.
  intros Hr Hax Hdt Hs nax J HJ HLs Hc Hc' EJ c.
  destruct (C65_onto_3d LA HD HR w L method m HLA B HI axes r g sh s u levels) as (x & E1 & X1 & X2 & X3 & E2); auto.
  destruct (C65_onto_3d LA HD HR w L method m HLA B HI axes r g sh s u' levels') as (x' & E1' & X1' & X2' & X3' & E2'); auto; try (rewrite EJ; assumption).
  exists x, x'. split; [exact E1|]. split; [exact E1'|]. rewrite EJ in E2'. fold J in E2, E2'. fold nax in X3, X3'.
  assert (Hrx : rank x = List.length sh) by (unfold rank; rewrite X3; apply upds_length).
  pose proof Hr as Hr0. apply new_mrn_inv in Hr0 as [Hl _].
  assert (Hn : List.length nax = 3%nat) by (unfold nax; rewrite map_length; exact Hl).
  assert (Hgx : gather nax 0%nat (shp x) = s) by (rewrite X3; destruct (good_axes_ok _ _ Hax); apply gather_upds; [assumption|congruence|assumption]).
  destruct (proj2 (C45_accepts LA HD HR w L method m HLA B HI (Some (Z.of_nat J)) axes x X1 Hl)) as (o & o2 & c2 & Ho & Hc2).
  { split; [unfold tdtype; rewrite X2; exact Hdt|]. rewrite Hrx. split; [exact Hax|]. lia. }
  pose proof Ho as Ho'. destruct (E2 o Ho) as [o' Ecx]. destruct (E2' o Ho) as [o'' Ecx'].
  assert (Sx : shp x' = shp x) by congruence. assert (Tx : ttag x' = ttag x) by congruence.
  pose proof (C66_matrix_3d (Some (Z.of_nat J)) axes o x x' o' o'' _ _ a b X1 X1' Sx Tx Ho Ecx Ecx') as El. fold (c u levels) in El. fold (c u' levels') in El.
  destruct (mw3_call LA o (tlin a b x x')) as [oz rz] eqn:Ez. cbn [snd] in El. subst rz.
  pose proof (wf_tlin a b x x' X1 X1' Sx) as Wz.
  pose proof (C45_reconstruction LA HD HR w L method m HLA B HI (Some (Z.of_nat J)) axes o (tlin a b x x') oz _ r Wz Ho Ez Hr) as Er. cbv zeta in Er. change (rank (tlin a b x x')) with (rank x) in Er. rewrite Hrx in Er. fold nax in Er.
  assert (Hlen : (1 < List.length (pc_items (pc_lin a b (c u levels) (c u' levels'))))%nat) by (unfold pc_lin, c; cbn [pc_items map2 List.length]; rewrite map2_length, !map_length, EJ; fold J; lia). specialize (Er Hlen).
  rewrite Er. f_equal. apply ext_even_id; [exact Wz|change (rank (tlin a b x x')) with (rank x); rewrite Hrx; apply good_axes_ok, Hax|]. change (shp (tlin a b x x')) with (shp x). rewrite Hgx.
  pose proof (level_even J s 0 (proj1 Hc) HJ) as He. cbn [Nat.pow] in He. rewrite (map_ext (fun n => n / 1)%nat (fun n => n)) in He by (intros; apply Nat.div_1_r). rewrite map_id in He. exact He.
Qed.
Theorem C66_matrix_rec_1d axis r g sh n u u' ds ds' a b : new_mwaverec w (AxInt axis) method = Ok r ->
  (- Z.of_nat (List.length sh) <= axis < Z.of_nat (List.length sh))%Z -> is_dtype_supported (fst g) = true ->
  let ax := norm_axis (List.length sh) axis in let J := List.length ds in
  (0 < J)%nat -> (L <= n / 2 ^ (J - 1))%nat -> List.length ds' = J ->
  coeff_sizes [ax] g sh [n] 1 u (map (fun d => [d]) ds) -> coeff_sizes [ax] g sh [n] 1 u' (map (fun d => [d]) ds') ->
  exists x x', snd (mr_call LA r (map PT (u :: ds))) = Ok x /\ snd (mr_call LA r (map PT (u' :: ds'))) = Ok x' /\
    snd (mr_call LA r (pc_items (pc_lin a b (mkPC true (map PT (u :: ds))) (mkPC true (map PT (u' :: ds')))))) = Ok (tlin a b x x').
Proof using All.
  intros Hr Hax Hdt ax J HJ HL EJ Hc Hc'. pose proof (norm_axis_lt _ _ Hax) as Ha. fold ax in Ha.
  destruct (C65_onto_1d LA HD HR w L method m HLA B HI axis r g sh n u ds) as (x & E1 & X1 & X2 & X3 & E2); auto.
  destruct (C65_onto_1d LA HD HR w L method m HLA B HI axis r g sh n u' ds') as (x' & E1' & X1' & X2' & X3' & E2'); auto; try (rewrite EJ; assumption).
  exists x, x'. split; [exact E1|]. split; [exact E1'|]. rewrite EJ in E2'. fold J in E2, E2'. fold ax in X3, X3'.
  assert (Hrx : rank x = List.length sh) by (unfold rank; rewrite X3; apply updn_length).
  assert (Hgx : nth ax (shp x) 0%nat = n) by (rewrite X3; apply nth_updn_eq, Ha).
  assert (Hdv : Forall (Nat.divide (2 ^ J)) [n]) by (destruct Hc as [Hc _]; rewrite map_length in Hc; exact Hc).
  pose proof (level_even J [n] 0 Hdv HJ) as He. cbn [Nat.pow map] in He. rewrite Nat.div_1_r in He. apply Forall_inv in He.
  destruct (proj2 (C40_accepts LA HD HR w L method m HLA B HI (Some (Z.of_nat J)) axis x X1)) as (o & o2 & c2 & Ho & Hc2).
  { split; [unfold tdtype; rewrite X2; exact Hdt|]. rewrite Hrx. split; [exact Hax|]. split; [|lia]. fold ax. rewrite Hgx. intros _ E. subst n. cbn in He. lia. }
  destruct (E2 o Ho) as [o' Ecx]. destruct (E2' o Ho) as [o'' Ecx'].
  assert (Sx : shp x' = shp x) by congruence. assert (Tx : ttag x' = ttag x) by congruence.
  pose proof (C66_matrix_1d (Some (Z.of_nat J)) axis o x x' o' o'' _ _ a b X1 X1' Sx Tx Ho Ecx Ecx') as El.
  destruct (mw_call LA o (tlin a b x x')) as [oz rz] eqn:Ez. cbn [snd] in El. subst rz.
  pose proof (wf_tlin a b x x' X1 X1' Sx) as Wz.
  rewrite (C40_reconstruction LA HD HR w L method m HLA B HI (Some (Z.of_nat J)) axis o (tlin a b x x') oz _ r Wz Ho Ez Hr). f_equal.
  change (rank (tlin a b x x')) with (rank x). rewrite Hrx. fold ax.
  apply ext_even_id; [exact Wz|apply good_axes1; change (rank (tlin a b x x')) with (rank x); rewrite Hrx; exact Ha|]. change (shp (tlin a b x x')) with (shp x). cbn [gather map]. rewrite Hgx. repeat constructor. exact He.
Qed.
End PL.

(** ** the continuous transform *)
Section PLC.
Context {K : CRing}.
Add Ring Kring2 : (cr_th K).
Local Open Scope K_scope.
Lemma cwt_value_lin (root : K) (p : nat -> K) step s M n (f g h : nat -> K) t (a b : K) : (forall j, (j < n)%nat -> h j = a * f j + b * g j) ->
  cwt_value root p step s M n h t = a * cwt_value root p step s M n f t + b * cwt_value root p step s M n g t.
Proof.
  intros H. unfold cwt_value. cbv zeta.
  assert (E : forall k q, lin_conv n M h q k = a * lin_conv n M f q k + b * lin_conv n M g q k).
  { intros k q. unfold lin_conv. apply sumf_lin. intros i Hi. destruct ((i <=? k)%nat && (k - i <? M)%nat)%bool; [rewrite H by exact Hi|]; ring. }
  rewrite !E. ring.
Qed.
(** cwt(a x + b y) = a cwt(x) + b cwt(y): for a complex wavelet with all scalars, for a real one (whose result is a real
    part) with scalars the real part commutes with *)
Theorem C66_cwt (C : cplx K) kind ap psi x step width data data' (scales : list Q) out out' (a b : K) :
  cplx_ok C -> wavelet_values ap psi x -> increasing_grid x step width -> psi <> [] ->
  wf data -> wf data' -> shp data' = shp data -> (1 <= rank data)%nat -> (1 <= tlast data)%nat -> (forall s, In s scales -> (0 < s)%Q) ->
  is_complex kind = true \/ (forall u v, cx_re C (a * u + b * v) = a * cx_re C u + b * cx_re C v) ->
  cwt C data scales kind ap = Ok out -> cwt C data' scales kind ap = Ok out' ->
  exists out2, cwt C (tlin a b data data') scales kind ap = Ok out2 /\ wf out2 /\ shp out2 = shp out /\ shp out' = shp out /\
    forall idx, valid idx (shp out) -> get out2 idx = a * get out idx + b * get out' idx.
Proof.
  intros HC Ha Hx Hpsi W W' S Hr Hn Hs Hre E E'.
  assert (R' : rank data' = rank data) by (unfold rank; rewrite S; reflexivity). assert (L' : tlast data' = tlast data) by (unfold tlast; rewrite R', S; reflexivity).
  assert (Hne : scales <> []).
  { intros ->. unfold cwt in E. apply rbind_ok in E as ([[ip o] xx] & Ei & E). destruct o; [discriminate|]. cbn in E. discriminate. }
  destruct (C46_cwt C kind ap psi x step width HC Ha Hx Hpsi data scales) as [[_ X]|[HF (o & X & W1 & S1 & G)]]; auto; [congruence|].
  destruct (C46_cwt C kind ap psi x step width HC Ha Hx Hpsi data' scales) as [[_ X']|[_ (o' & X' & W1' & S1' & G')]]; auto; try lia; [congruence|].
  assert (o = out) by congruence. assert (o' = out') by congruence. subst o o'.
  destruct (C46_cwt C kind ap psi x step width HC Ha Hx Hpsi (tlin a b data data') scales) as [[XE _]|[_ (o2 & X2 & W2 & S2 & G2)]]; auto; [apply wf_tlin; assumption| |].
  - exfalso. apply Exists_exists in XE as (s & Hin & Hs1). rewrite Forall_forall in HF. exact (HF s Hin Hs1).
  - exists o2. split; [exact X2|]. split; [exact W2|]. change (shp (tlin a b data data')) with (shp data) in S2. split; [congruence|]. split; [congruence|].
    intros idx Hv. rewrite S1 in Hv. destruct idx as [|i idx]; [inversion Hv|]. apply valid_cons_inv in Hv as [Hi Hv].
    destruct (int_psi_scale_ok psi x step width (nth i scales 0%Q) (grid_of x step width Hx) (Hs _ (nth_In _ _ Hi)) Hpsi) as (M & HM & _).
    rewrite (G2 i M idx Hi HM) by exact Hv. rewrite (G i M idx Hi HM) by exact Hv. rewrite (G' i M idx Hi HM) by (rewrite S; exact Hv).
    change (rank (tlin a b data data')) with (rank data). change (tlast (tlin a b data data')) with (tlast data). rewrite R', L'.
    rewrite (cwt_value_lin _ _ step (nth i scales 0%Q) M (tlast data) (fun j => get data (updn (rank data - 1) j idx)) (fun j => get data' (updn (rank data - 1) j idx)) _ _ a b) by (intros j Hj; apply get_tlin; assumption).
    unfold out_value. destruct Hre as [Hc|Hre]; [rewrite Hc; reflexivity|]. destruct (is_complex kind); [reflexivity|apply Hre].
Qed.
End PLC.
