(** MatrixWavedec2/3 and MatrixWaverec2/3: plumbing shared by the separable and the non-separable transforms. *)
From Coq Require Import List Arith ZArith Lia Bool String Ring.
From Coq Require Import ZifyNat ZifyBool.
From Verif Require Import Base Sums Tensor TensorFacts Util Perm Plumb Accept Spec Conv1 Conv2 PadFacts CoreFacts Synthesis Filters Wave1 Sep SepFacts Lin Sparse SparseFacts SpecMat SpecMatN SparseMM LinAlg Mat1 MatN MatPre Mat1Facts MatNFacts.
Import ListNotations.
Ltac Zify.zify_post_hook ::= Z.div_mod_to_equations.
Local Arguments Nat.div : simpl never.
Local Arguments Nat.modulo : simpl never.

Definition half_up (n : nat) : nat := (even_up n / 2)%nat.
Fixpoint fitsN (L J : nat) (s : list nat) : Prop :=
  match J with O => True | S J' => Forall (fun n => L <= n) s /\ fitsN L J' (map half_up s) end.
Lemma existsb_ltb L s : existsb (fun n => Nat.ltb n L) s = false <-> Forall (fun n => L <= n) s.
Proof.
  induction s as [|n s IH]; cbn [existsb]; [split; auto|]. rewrite orb_false_iff, IH. split.
  - intros [H1 H2]. apply Nat.ltb_ge in H1. constructor; assumption.
  - intros H. inversion H; subst. split; [apply Nat.ltb_ge; assumption|assumption].
Qed.
Lemma existsb_ltb_true L s : existsb (fun n => Nat.ltb n L) s = true -> ~ Forall (fun n => L <= n) s.
Proof. intros H1 H2. apply existsb_ltb in H2. congruence. Qed.
Lemma fits_levels_n L fuel : forall s, fitsN L (bwn_levels fuel L s) s.
Proof.
  induction fuel as [|fuel IH]; intros s; cbn [bwn_levels fitsN]; [exact I|]. destruct (existsb _ s) eqn:E; cbn [fitsN]; [exact I|].
  split; [apply existsb_ltb, E|apply IH].
Qed.
Lemma levels_fits_n L J : forall s, fitsN L J s -> bwn_levels J L s = J.
Proof.
  induction J as [|J IH]; intros s H; cbn [bwn_levels]; [reflexivity|]. destruct H as [H1 H2]. rewrite (proj2 (existsb_ltb L s) H1).
  f_equal. apply IH, H2.
Qed.
Lemma even_up_isodd n : (if isodd n then S n else n) = even_up n.
Proof. unfold isodd, even_up. destruct (Nat.eqb_spec (n mod 2) 0); cbn [negb]; lia. Qed.
Lemma matrix_pad_eq s : matrix_pad s = (map even_up s, map isodd s).
Proof. unfold matrix_pad. f_equal. apply map_ext. apply even_up_isodd. Qed.
Lemma map_half_up s : map (fun n => n / 2) (map even_up s) = map half_up s.
Proof. rewrite map_map. reflexivity. Qed.
Lemma even_up_even_up s : map even_up (map even_up s) = map even_up s.
Proof. rewrite map_map. apply map_ext. intros n. apply even_up_id, even_up_even. Qed.
Lemma fits_even_n L J s : fitsN L J s -> fitsN L J (map even_up s).
Proof.
  destruct J; [auto|]. intros [H1 H2]. split.
  - apply Forall_forall. intros n Hn. apply in_map_iff in Hn as (q & <- & Hq). rewrite Forall_forall in H1. specialize (H1 q Hq). pose proof (even_up_ge q). lia.
  - replace (map half_up (map even_up s)) with (map half_up s); [exact H2|]. rewrite map_map. apply map_ext. intros n. unfold half_up. rewrite (even_up_id _ (even_up_even n)). reflexivity.
Qed.
Lemma Forall_even_up s : Forall (fun n => n mod 2 = 0) (map even_up s).
Proof. apply Forall_forall. intros n Hn. apply in_map_iff in Hn as (q & <- & _). apply even_up_even. Qed.
Lemma Forall_ge_up L s : Forall (fun n => L <= n) s -> Forall (fun n => L <= n) (map even_up s).
Proof. intros H. apply Forall_forall. intros n Hn. apply in_map_iff in Hn as (q & <- & Hq). rewrite Forall_forall in H. specialize (H q Hq). pose proof (even_up_ge q). lia. Qed.
Lemma pads_of_ev s : pads_of (map isodd s) = evpads s.
Proof.
  unfold pads_of, evpads. rewrite map_map. apply map_ext. intros n. unfold isodd. destruct (Nat.eqb_spec (n mod 2) 0) as [E|E]; cbn [negb]; [rewrite E; reflexivity|].
  replace (n mod 2) with 1 by lia. reflexivity.
Qed.
Lemma no_odd s : existsb (fun b => b) (map isodd s) = false -> Forall (fun n => n mod 2 = 0) s.
Proof.
  induction s as [|n s IH]; intros H; [constructor|]. cbn [map existsb] in H. apply orb_false_iff in H as [H1 H2]. constructor; [|apply IH, H2].
  unfold isodd in H1. destruct (Nat.eqb_spec (n mod 2) 0); [assumption|discriminate].
Qed.
Lemma extendable2 m n : 2 <= n -> extendable m n.
Proof. destruct m; cbn; intros; auto; lia. Qed.
Lemma rank_shp {K : CRing} (t : tensor K) s : shp t = s -> rank t = List.length s.
Proof. intros <-. reflexivity. Qed.

Section NL.
Context {K : CRing}.
Add Ring Kring : (cr_th K).
Open Scope K_scope.
Implicit Types (t u x : tensor K) (w : wavelet K).

(** ** the building of the matrices *)
(** the matrices of J levels *)
Fixpoint bmatsN (mf : list nat -> list (smat K)) (J : nat) (s : list nat) : list (list (smat K)) := match J with O => [] | S J' => mf (map even_up s) :: bmatsN mf J' (map half_up s) end.
Lemma bmatsN_t (mf : list nat -> list (smat K)) J : forall s, map (map sp_t) (bmatsN mf J s) = bmatsN (fun s => map sp_t (mf s)) J s.
Proof. induction J as [|J IH]; intros s; cbn [bmatsN map]; [reflexivity|]. rewrite IH. reflexivity. Qed.
Section Build.
Variables (LA : linalg K) (w : wavelet K) (method : string) (L : nat) (g : tag) (sep : bool) (dimok : list nat -> Prop).
Hypothesis Hdim : forall (f : nat -> nat) s, dimok s -> dimok (map f s).
(** the analysis and the synthesis matrices of a level with (even) sizes s *)
Variables lm ls : list nat -> list (smat K).
Hypothesis Hlm : forall s, dimok s -> Forall (fun n => (L <= n)%nat) s -> Forall (fun n => (n mod 2 = 0)%nat) s -> level_mats_a LA sep g w method s = Ok (lm s).
Hypothesis Hls : forall s, dimok s -> Forall (fun n => (L <= n)%nat) s -> Forall (fun n => (n mod 2 = 0)%nat) s -> level_mats_s LA sep g w method s = Ok (ls s).
Hypothesis Hdl : List.length (dec_lo w) = L.
Hypothesis Hrl : List.length (rec_lo w) = L.
Fixpoint bpadsN (J : nat) (s : list nat) : list (list bool) := match J with O => [] | S J' => map isodd s :: bpadsN J' (map half_up s) end.
Fixpoint bsizesN (J : nat) (s : list nat) : list (list nat) := match J with O => [] | S J' => map even_up s :: bsizesN J' (map half_up s) end.
Definition anypad (J : nat) (s : list nat) : bool := existsb (existsb (fun b => b)) (bpadsN J s).
(** the sizes left after the last level *)
Definition restN (J : nat) (s : list nat) : list nat := Nat.iter J (map half_up) s.
Lemma restN_S J s : restN (S J) s = restN J (map half_up s). Proof. apply iter_r. Qed.
Lemma build_analysis_n_eq fuel : forall curr mats pads padded sizes, dimok curr ->
  build_analysis_n LA fuel sep g w method curr mats pads padded sizes =
    ((mats ++ bmatsN lm (bwn_levels fuel L curr) curr, pads ++ bpadsN (bwn_levels fuel L curr) curr, padded || anypad (bwn_levels fuel L curr) curr,
      sizes ++ bsizesN (bwn_levels fuel L curr) curr ++ [restN (bwn_levels fuel L curr) curr]), None).
Proof.
  unfold anypad. induction fuel as [|fuel IH]; intros curr mats pads padded sizes Hc; cbn [build_analysis_n bwn_levels bmatsN bpadsN bsizesN existsb].
  - rewrite !app_nil_r, orb_false_r. reflexivity.
  - rewrite Hdl. destruct (existsb (fun n => Nat.ltb n L) curr) eqn:Ex; cbn [bmatsN bpadsN bsizesN existsb].
    + rewrite !app_nil_r, orb_false_r. reflexivity.
    + apply existsb_ltb in Ex. rewrite matrix_pad_eq. rewrite Hlm; [|apply Hdim, Hc|apply Forall_ge_up, Ex|apply Forall_even_up].
      rewrite map_half_up, restN_S. rewrite (IH (map half_up curr)) by (apply Hdim, Hc). change (fun n => (even_up n / 2)%nat) with half_up.
      rewrite <- !app_assoc. cbn [app]. rewrite <- orb_assoc. reflexivity.
Qed.
Lemma build_synthesis_n_eq fuel : forall curr mats padded, dimok curr ->
  build_synthesis_n LA fuel sep g w method curr mats padded =
    ((mats ++ bmatsN ls (bwn_levels fuel L curr) curr, padded || anypad (bwn_levels fuel L curr) curr), None).
Proof.
  unfold anypad. induction fuel as [|fuel IH]; intros curr mats padded Hc; cbn [build_synthesis_n bwn_levels bmatsN bpadsN existsb map].
  - rewrite !app_nil_r, orb_false_r. reflexivity.
  - rewrite Hrl. destruct (existsb (fun n => Nat.ltb n L) curr) eqn:Ex; cbn [bmatsN bpadsN existsb map].
    + rewrite !app_nil_r, orb_false_r. reflexivity.
    + apply existsb_ltb in Ex. rewrite matrix_pad_eq. rewrite Hls; [|apply Hdim, Hc|apply Forall_ge_up, Ex|apply Forall_even_up].
      rewrite map_half_up, IH by (apply Hdim, Hc). rewrite <- !app_assoc. cbn [app]. rewrite <- orb_assoc. reflexivity.
Qed.

(** ** the first part of a call: the matrices end up being those of this level and these sizes *)
Definition wn_cached (o : mwavedecn K) : Prop := wn_mats o = [] \/
  exists s lev, dimok s /\ wn_shape o = Some s /\ wn_level o = Some lev /\ wn_mats o = bmatsN lm (bwn_levels (Z.to_nat lev) L s) s /\ wn_pads o = bpadsN (bwn_levels (Z.to_nat lev) L s) s /\
    wn_sizes o = bsizesN (bwn_levels (Z.to_nat lev) L s) s ++ [restN (bwn_levels (Z.to_nat lev) L s) s] /\ wn_padded o = anypad (bwn_levels (Z.to_nat lev) L s) s.
Definition wn_lev (level : option Z) (s : list nat) : result Z :=
  match level with None => mat_level_n (get_len w) s | Some l => if (l <=? 0)%Z then Raise ValueError else Ok l end.
Definition wn_conf (o : mwavedecn K) (odd : option string) (axes : list Z) : Prop :=
  wn_wav o = w /\ wn_method o = method /\ wn_sep o = sep /\ wn_odd o = odd /\ wn_axes o = axes.
Lemma same_shape_spec o s : same_shape o s = true <-> o = Some s.
Proof.
  destruct o as [l|]; cbn [same_shape]; [|split; discriminate]. change (list_eqb Nat.eqb l s) with (eqidx l s). rewrite eqidx_spec. split; [intros ->; reflexivity|congruence].
Qed.
(** the object after a successful first part is determined by the configuration, the level and the sizes *)
Definition readyN (odd : option string) (axes : list Z) (lev : Z) (s : list nat) : mwavedecn K :=
  let J := bwn_levels (Z.to_nat lev) L s in
  mkMWN w (Some lev) axes method odd sep (Some s) (bmatsN lm J s) (bpadsN J s) (anypad J s) (bsizesN J s ++ [restN J s]).
Theorem prepare_n_eq (o : mwavedecn K) odd axes s lev : wn_conf o odd axes -> dimok s -> wn_cached o -> wn_lev (wn_level o) s = Ok lev ->
  prepare_n LA o s g = (readyN odd axes lev s, None).
Proof.
  intros (Ew & Em & Es & Eo & Ea) Hs Hinv Hlev. unfold readyN. set (J := bwn_levels (Z.to_nat lev) L s).
  pose proof (build_analysis_n_eq (Z.to_nat lev) s [] [] false [] Hs) as Hb. cbn [app orb] in Hb. fold J in Hb.
  unfold prepare_n. rewrite Ew, Em, Es. destruct (wn_level o) as [l|] eqn:El; cbn [wn_lev] in Hlev.
  - destruct (l <=? 0)%Z eqn:Hl; [discriminate|]. injection Hlev as ->.
    destruct (wn_mats o) as [|a0 mats] eqn:Emats.
    + cbn [orb]. rewrite Hb. unfold with_state_n. rewrite Ew, Em, Es, Eo, Ea. reflexivity.
    + cbn [orb]. destruct (same_shape (wn_shape o) s) eqn:Ess; cbn [negb].
      * apply same_shape_spec in Ess. destruct Hinv as [Hi|(s0 & lev0 & I0 & I1 & I2 & I3 & I4 & I5 & I6)]; [congruence|]. rewrite Ess in I1. injection I1 as <-. rewrite El in I2. injection I2 as <-. fold J in I3, I4, I5, I6.
        unfold with_state_n. rewrite Ew, Em, Es, Eo, Ea, I4, I5, I6, <- I3, Emats. reflexivity.
      * rewrite Hb. unfold with_state_n. rewrite Ew, Em, Es, Eo, Ea. reflexivity.
  - rewrite Hlev. cbn [rbind]. rewrite orb_true_r, Hb. unfold with_state_n. rewrite Ew, Em, Es, Eo, Ea. reflexivity.
Qed.
Lemma ready_cached odd axes lev s : dimok s -> wn_cached (readyN odd axes lev s).
Proof. intros Hs. right. exists s, lev. unfold readyN. cbn [wn_shape wn_level wn_mats wn_pads wn_sizes wn_padded]. auto 10. Qed.
Theorem prepare_n_ok (o : mwavedecn K) odd axes s lev : wn_conf o odd axes -> dimok s -> wn_cached o -> wn_lev (wn_level o) s = Ok lev ->
  let J := bwn_levels (Z.to_nat lev) L s in
  exists o' rest, prepare_n LA o s g = (o', None) /\ wn_conf o' odd axes /\ wn_level o' = Some lev /\ wn_mats o' = bmatsN lm J s /\ wn_pads o' = bpadsN J s /\
    wn_sizes o' = bsizesN J s ++ rest /\ wn_padded o' = anypad J s /\ wn_cached o'.
Proof.
  intros Hc Hs Hinv Hlev J. exists (readyN odd axes lev s), [restN J s]. split; [apply prepare_n_eq; assumption|]. split; [repeat split|]. repeat (split; [reflexivity|]). apply ready_cached, Hs.
Qed.
Definition rn_cached (r : mwaverecn K) : Prop := rn_mats r = [] \/
  exists s lvl, dimok s /\ rn_shape r = Some s /\ rn_level r = Some lvl /\ rn_mats r = bmatsN ls (bwn_levels lvl L s) s.
Definition rn_conf (r : mwaverecn K) (axes : list Z) : Prop := rn_wav r = w /\ rn_method r = method /\ rn_sep r = sep /\ rn_axes r = axes.
Theorem prepare_rec_n_ok (r : mwaverecn K) axes s lvl : rn_conf r axes -> dimok s -> rn_cached r ->
  exists r', prepare_rec_n LA r s lvl g = (r', None) /\ rn_conf r' axes /\ rn_mats r' = bmatsN ls (bwn_levels lvl L s) s /\ rn_cached r' /\
    (rn_mats r = [] -> rn_padded r' = anypad (bwn_levels lvl L s) s).
Proof.
  intros (Ew & Em & Es & Ea) Hs Hinv. unfold prepare_rec_n. rewrite Ew, Em, Es.
  pose proof (build_synthesis_n_eq lvl s [] false Hs) as Hb. cbn [app orb] in Hb. rewrite Hb. cbn [fst snd].
  assert (Hnew : let r' := mkMRN w (rn_axes r) method sep (bmatsN ls (bwn_levels lvl L s) s) (Some lvl) (Some s) (anypad (bwn_levels lvl L s) s) in
    rn_conf r' axes /\ rn_mats r' = bmatsN ls (bwn_levels lvl L s) s /\ rn_cached r' /\ (rn_mats r = [] -> rn_padded r' = anypad (bwn_levels lvl L s) s)).
  { cbv zeta. cbn [rn_mats rn_padded]. split; [repeat split; assumption|]. split; [reflexivity|]. split; [|reflexivity]. right. exists s, lvl. auto. }
  cbv zeta in Hnew.
  destruct (rn_mats r) as [|s0 ms] eqn:Ems; cbn [orb]; [eexists; split; [reflexivity|exact Hnew]|].
  destruct (same_shape (rn_shape r) s && match rn_level r with Some l => Nat.eqb l lvl | None => false end) eqn:Er; cbn [negb]; [|eexists; split; [reflexivity|exact Hnew]].
  apply andb_true_iff in Er as [E1 E2]. apply same_shape_spec in E1. destruct (rn_level r) as [l|] eqn:El; [|discriminate]. apply Nat.eqb_eq in E2. subst l.
  destruct Hinv as [Hi|(s1 & lvl' & I0 & I1 & I2 & I3)]; [congruence|]. rewrite E1 in I1. injection I1 as <-. rewrite El in I2. injection I2 as <-.
  eexists. split; [reflexivity|]. split; [repeat split; assumption|]. split; [exact I3|]. split; [right; exists s, lvl; auto|congruence].
Qed.
End Build.

(** ** bands on the original axes and in the folded layout *)
Section Bands.
Variables (M : list nat -> list nat -> list nat -> K) (m : mode) (nax : list nat) (N L : nat).
Hypothesis HN : List.length nax = N.
Hypothesis HL : (2 <= L)%nat.
Notation band := (bwn_band M m nax).
Notation lo := (bwn_band M m nax (repeat false N)).
Notation loc := (bandc M m (repeat false N)).
Lemma bwn_ext k s : Forall (fun n => (2 <= n)%nat) s -> op_ext s (bwn_op M m k).
Proof.
  intros Hs X X' ks Hk H. unfold bwn_op. apply sumI_ext. intros js Hj. apply (f_equal2 kmul eq_refl). apply ext_get_ext.
  - rewrite map_length. apply valid_length in Hj. rewrite map_length in Hj. exact Hj.
  - eapply Forall_impl; [|exact Hs]. intros n Hn. apply extendable2, Hn.
  - exact H.
Qed.
Lemma band_facts k x : wf x -> good_axes (rank x) nax ->
  wf (band k x) /\ rank (band k x) = rank x /\ fsz nax (shp (band k x)) = fsz nax (shp x) /\ ttag (band k x) = ttag x /\
  gather nax 0%nat (shp (band k x)) = map half_up (gather nax 0%nat (shp x)).
Proof.
  intros Hw Hg. split; [apply wf_make|]. split; [apply rank_along|]. split; [apply fsz_along, Hg|]. split; [reflexivity|].
  unfold bwn_band. rewrite gather_along; [reflexivity|exact Hg|]. rewrite map_length, gather_length. reflexivity.
Qed.
Lemma band_pre k x : wf x -> good_axes (rank x) nax -> Forall (fun n => (L <= n)%nat) (gather nax 0%nat (shp x)) ->
  pre_t nax (band k x) = bandc M m k (pre_t nax x).
Proof.
  intros Hw Hg Hs. unfold bwn_band, bandc. apply pre_along; auto.
  - apply bwn_ext. eapply Forall_impl; [|exact Hs]. cbn. intros; lia.
  - rewrite map_length, gather_length. reflexivity.
Qed.
Lemma iter_facts J : forall x, wf x -> good_axes (rank x) nax -> fitsN L J (gather nax 0%nat (shp x)) ->
  let y := Nat.iter J lo x in
  wf y /\ rank y = rank x /\ fsz nax (shp y) = fsz nax (shp x) /\ ttag y = ttag x /\ pre_t nax y = Nat.iter J loc (pre_t nax x).
Proof.
  induction J as [|J IH]; intros x Hw Hg Hf; cbv zeta; [cbn; auto|]. rewrite !iter_r. destruct Hf as [Hn Hf].
  destruct (band_facts (repeat false N) x Hw Hg) as (B1 & B2 & B3 & B4 & B5).
  destruct (IH (lo x)) as (H1 & H2 & H3 & H4 & H5); [exact B1|rewrite B2; exact Hg|rewrite B5; exact Hf|].
  rewrite (band_pre _ x Hw Hg Hn) in H5. repeat split; congruence.
Qed.
Lemma iter_sizes J : forall x j, wf x -> good_axes (rank x) nax -> fitsN L J (gather nax 0%nat (shp x)) -> (j < J)%nat ->
  fitsN L j (gather nax 0%nat (shp x)) /\ Forall (fun n => (L <= n)%nat) (gather nax 0%nat (shp (Nat.iter j lo x))).
Proof.
  induction J as [|J IH]; intros x j Hw Hg Hf Hj; [lia|]. destruct Hf as [Hn Hf]. destruct j as [|j]; [split; [exact I|exact Hn]|]. rewrite iter_r.
  destruct (band_facts (repeat false N) x Hw Hg) as (B1 & B2 & B3 & B4 & B5).
  destruct (IH (lo x) j) as (H1 & H2); [exact B1|rewrite B2; exact Hg|rewrite B5; exact Hf|lia|]. split; [|exact H2]. cbn [fitsN]. rewrite B5 in H1. split; assumption.
Qed.
Lemma detail_facts J j k x : wf x -> good_axes (rank x) nax -> fitsN L J (gather nax 0%nat (shp x)) -> (j < J)%nat ->
  let d := band k (Nat.iter j lo x) in
  wf d /\ rank d = rank x /\ fsz nax (shp d) = fsz nax (shp x) /\ ttag d = ttag x /\ pre_t nax d = bandc M m k (Nat.iter j loc (pre_t nax x)).
Proof.
  intros Hw Hg Hf Hj d. destruct (iter_sizes J x j Hw Hg Hf Hj) as (Hfj & Hn). destruct (iter_facts j x Hw Hg Hfj) as (H1 & H2 & H3 & H4 & H5).
  assert (Hg' : good_axes (rank (Nat.iter j lo x)) nax) by (rewrite H2; exact Hg).
  destruct (band_facts k _ H1 Hg') as (B1 & B2 & B3 & B4 & _). unfold d. rewrite (band_pre k _ H1 Hg' Hn), H5. repeat split; congruence.
Qed.

(** containers *)
Variables (wrap : list (tensor K) -> pyval K) (ks : list (list bool)).
Hypothesis wrap_map : forall f l, pv_map f (wrap l) = wrap (map f l).
Hypothesis wrap_tensors : forall l, List.length l = List.length ks -> pv_tensors (wrap l) = l.
Hypothesis wrap_ok : forall l, List.length l = List.length ks -> pv_ok (wrap l) /\ kind_ok false [wrap l].
Definition gcoeffs (bd : list bool -> tensor K -> tensor K) (J : nat) x : list (pyval K) :=
  PT (Nat.iter J (bd (repeat false N)) x) :: map (fun j => wrap (map (fun k => bd k (Nat.iter j (bd (repeat false N)) x)) ks)) (rev (seq 0 J)).
Lemma gcoeffs_in bd J x t : In t (pc_tensors (mkPC false (gcoeffs bd J x))) ->
  t = Nat.iter J (bd (repeat false N)) x \/ exists j k, (j < J)%nat /\ In k ks /\ t = bd k (Nat.iter j (bd (repeat false N)) x).
Proof.
  unfold pc_tensors, gcoeffs. cbn [pc_items flat_map pv_tensors]. intros [<-|H]; [left; reflexivity|]. right. apply in_flat_map in H as (v & Hv & Ht).
  apply in_map_iff in Hv as (j & <- & Hj). apply in_rev, in_seq in Hj. rewrite wrap_tensors in Ht by (rewrite map_length; reflexivity).
  apply in_map_iff in Ht as (k & <- & Hk). exists j, k. split; [lia|]. auto.
Qed.
Lemma gcoeffs_regular bd J x : pc_regular (mkPC false (gcoeffs bd J x)).
Proof.
  unfold pc_regular, gcoeffs. cbn [pc_items pc_is_list].
  assert (H : Forall pv_ok (map (fun j => wrap (map (fun k => bd k (Nat.iter j (bd (repeat false N)) x)) ks)) (rev (seq 0 J)))).
  { apply Forall_forall. intros v Hv. apply in_map_iff in Hv as (j & <- & _). apply wrap_ok. rewrite map_length. reflexivity. }
  split; [exact H|]. destruct (rev (seq 0 J)) as [|j l]; [exact I|]. cbn [map kind_ok]. apply (wrap_ok (map (fun k => bd k (Nat.iter j (bd (repeat false N)) x)) ks)). rewrite map_length. reflexivity.
Qed.
Lemma gcoeffs_map J x : wf x -> good_axes (rank x) nax -> fitsN L J (gather nax 0%nat (shp x)) ->
  pc_map (pre_t nax) (mkPC false (gcoeffs band J x)) = mkPC false (gcoeffs (bandc M m) J (pre_t nax x)).
Proof.
  intros Hw Hg Hf. unfold pc_map, gcoeffs. cbn [pc_items pc_is_list map pv_map]. f_equal. f_equal; [f_equal; apply (iter_facts J x Hw Hg Hf)|].
  rewrite map_map. apply map_ext_in. intros j Hj. apply in_rev, in_seq in Hj. rewrite wrap_map, map_map. f_equal. apply map_ext. intros k. apply (detail_facts J j k x Hw Hg Hf). lia.
Qed.
Lemma gcoeffs_facts J x : wf x -> good_axes (rank x) nax -> fitsN L J (gather nax 0%nat (shp x)) ->
  forall t, In t (pc_tensors (mkPC false (gcoeffs band J x))) -> wf t /\ rank t = rank x /\ fsz nax (shp t) = fsz nax (shp x) /\ ttag t = ttag x.
Proof.
  intros Hw Hg Hf t Ht. destruct (gcoeffs_in band J x t Ht) as [->|(j & k & Hj & _ & ->)].
  - destruct (iter_facts J x Hw Hg Hf) as (H1 & H2 & H3 & H4 & _). auto.
  - destruct (detail_facts J j k x Hw Hg Hf Hj) as (H1 & H2 & H3 & H4 & _). auto.
Qed.
(** postprocessing the folded coefficients gives the coefficients on the original axes *)
Lemma gcoeffs_post axes J x : (0 < N)%nat -> List.length axes = N -> axes_ok (rank x) axes -> nax = map (norm_axis (rank x)) axes -> wf x -> fitsN L J (gather nax 0%nat (shp x)) ->
  postprocess_coeffs (mkPC false (gcoeffs (bandc M m) J (pre_t nax x))) N (fsz nax (shp x) ++ gather nax 0%nat (shp x)) (AxSeq axes) = Ok (mkPC false (gcoeffs band J x)).
Proof.
  intros H0 Hla Hax Hnx Hw Hf. assert (Hg : good_axes (rank x) nax) by (rewrite Hnx; apply good_axes_ok, Hax).
  rewrite <- (gcoeffs_map J x Hw Hg Hf). pose proof (gcoeffs_facts J x Hw Hg Hf) as Hall.
  rewrite (postprocess_coeffs_ok _ N (AxSeq axes) axes (rank x)); auto.
  - f_equal. rewrite pc_map_map. apply pc_map_id. intros t Ht. destruct (Hall t Ht) as (T1 & T2 & T3 & T4). rewrite <- Hnx, <- T3. apply post_pre; [exact T1|rewrite T2; exact Hg].
  - apply pc_map_regular, gcoeffs_regular.
  - cbn. rewrite Hla, Nat.eqb_refl. reflexivity.
  - rewrite fsz_length by exact Hg. rewrite HN. reflexivity.
  - rewrite gather_length. exact HN.
  - rewrite pc_map_tensors. intros t Ht. apply in_map_iff in Ht as (q & <- & Hq). destruct (Hall q Hq) as (T1 & T2 & T3 & T4).
    split; [apply pre_t_wf; rewrite T2; exact Hg|]. exists (gather nax 0%nat (shp q)). split; [rewrite <- T3; reflexivity|]. rewrite gather_length. exact HN.
Qed.
Lemma gcoeffs_preproc axes J x : (0 < N)%nat -> List.length axes = N -> axes_ok (rank x) axes -> nax = map (norm_axis (rank x)) axes -> wf x -> is_dtype_supported (tdtype x) = true -> fitsN L J (gather nax 0%nat (shp x)) ->
  exists bk, preprocess_coeffs (mkPC false (gcoeffs band J x)) N (AxSeq axes) false = Ok (mkPC false (gcoeffs (bandc M m) J (pre_t nax x)), fsz nax (shp x) ++ bk) /\ List.length bk = N.
Proof.
  intros H0 Hla Hax Hnx Hw Hdt Hf. assert (Hg : good_axes (rank x) nax) by (rewrite Hnx; apply good_axes_ok, Hax).
  pose proof (gcoeffs_facts J x Hw Hg Hf) as Hall. set (a := Nat.iter J lo x).
  exists (gather nax 0%nat (shp a)). split; [|rewrite gather_length; exact HN].
  rewrite (preprocess_coeffs_ok _ N (AxSeq axes) axes (rank x) false); auto.
  - rewrite <- Hnx. match goal with |- context [pc_map ?f ?c] => change (pc_map f c) with (pc_map (pre_t nax) c) end. rewrite (gcoeffs_map J x Hw Hg Hf). unfold first_shape, gcoeffs. cbn [pc_items]. fold a. do 3 f_equal. apply (Hall a). left. reflexivity.
  - apply gcoeffs_regular.
  - unfold first_dtype, gcoeffs. cbn [pc_items]. fold a. destruct (Hall a (or_introl eq_refl)) as (_ & _ & _ & Ht). unfold tdtype in *. rewrite Ht. exact Hdt.
  - cbn. rewrite Hla, Nat.eqb_refl. reflexivity.
  - intros t Ht. destruct (Hall t Ht) as (T1 & T2 & _). auto.
Qed.
End Bands.
End NL.
