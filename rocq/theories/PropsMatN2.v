(** C42 for MatrixWavedec2/3 and MatrixWaverec2/3: objects can be reused. *)
From Coq Require Import List Arith ZArith Lia Bool String Ring.
From Coq Require Import ZifyNat ZifyBool.
From Verif Require Import Base Sums Tensor TensorFacts Util Perm Plumb Accept Spec Conv1 Conv2 PadFacts CoreFacts AnalysisInv Synthesis Filters Wave1 Wave1Inv Rec1 RecN Sep SepFacts Lin Sparse SparseFacts SpecMat SpecMatN SparseMM LinAlg GramSchmidt Mat1 MatN MatOrth Boundary MatPre Mat1Facts Mat1Call Tags PropsMat1 MatNFacts MatNLoop MatNSep MatNCall PropsMatN.
Import ListNotations.
Ltac Zify.zify_post_hook ::= Z.div_mod_to_equations.
Local Arguments Nat.div : simpl never.
Local Arguments Nat.modulo : simpl never.

Section PN2.
Context {K : CRing}.
Implicit Types (t u x : tensor K) (w : wavelet K).
Variable LA : linalg K.

(** the results of a sequence of calls on one object *)
Fixpoint mwn_run (call : mwavedecn K -> tensor K -> mwavedecn K * result (pycoeffs K)) (o : mwavedecn K) (xs : list (tensor K)) : list (result (pycoeffs K)) :=
  match xs with [] => [] | x :: xs' => let oc := call o x in snd oc :: mwn_run call (fst oc) xs' end.
Fixpoint mrn_run (call : mwaverecn K -> list (pyval K) -> mwaverecn K * result (tensor K)) (r : mwaverecn K) (cs : list (list (pyval K))) : list (result (tensor K)) :=
  match cs with [] => [] | c :: cs' => let ry := call r c in snd ry :: mrn_run call (fst ry) cs' end.
(** the object and the result of a call of MatrixWaverec3 *)
Definition mr3_res (r : mwaverecn K) (cs : list (pyval K)) : mwaverecn K * result (tensor K) := fst (mr3_call LA r cs).

Lemma unpack_inv n s s' : unpack n s = Ok s' -> List.length s = n /\ s' = s.
Proof. unfold unpack. destruct (Nat.eqb_spec (List.length s) n); [|discriminate]. intros E. injection E as <-. auto. Qed.
Lemma same_tag g cs N ax fst_ ds g' : (forall t, In t (pc_tensors (mkPC false cs)) -> ttag t = g) -> preprocess_coeffs (mkPC false cs) N ax false = Ok (fst_, ds) -> check_same_device_dtype fst_ = Ok g' -> g' = g.
Proof.
  intros Hcs Hp Hc. pose proof (preprocess_tagged _ _ _ _ _ _ _ Hp Hcs) as Ht. unfold check_same_device_dtype in Hc. destruct (pc_items fst_) as [|v l] eqn:Ei; [discriminate|].
  apply rbind_ok in Hc as (t & Hv & Hc). apply rbind_ok in Hc as (? & _ & Hc). apply rbind_ok in Hc as (? & _ & Hc). injection Hc as <-.
  destruct v; try discriminate. injection Hv as ->. apply Ht. unfold pc_tensors. rewrite Ei. left. reflexivity.
Qed.

(** ** C20, C21 for MatrixWaverec3: what happens to the caller's containers *)
Lemma mr3_loop_eff rmats : forall his lll, Forall2 (fun v v' : pyval K => v' = v \/ exists d l, v = PDict d /\ v' = PDict (dict_set d "aaa" l)) his (snd (mr3_loop rmats lll his)).
Proof.
  intros his. revert rmats. assert (Hrefl : forall l : list (pyval K), Forall2 (fun v v' : pyval K => v' = v \/ exists d l, v = PDict d /\ v' = PDict (dict_set d "aaa" l)) l l) by (induction l; constructor; auto).
  induction his as [|v his IH]; intros rmats lll; cbn [mr3_loop snd]; [constructor|].
  destruct v as [t|l|d|]; cbn [snd]; try apply Hrefl.
  destruct (negb (Nat.eqb (List.length d) 7)); [apply Hrefl|]. destruct (negb _); [apply Hrefl|].
  match goal with |- context [match ?p with Ok _ => _ | Raise _ => _ end] => destruct p as [[u rmats']|e] end.
  - specialize (IH rmats' u). destruct (mr3_loop rmats' u his) as [r l]. cbn [snd] in *. constructor; [right; eauto|exact IH].
  - cbn [snd]. constructor; [right; eauto|apply Hrefl].
Qed.
Lemma pre_aliases_id (c : pycoeffs K) ndim ax (c' : pycoeffs K) ds : pre_aliases c ndim ax = true -> preprocess_coeffs c ndim ax false = Ok (c', ds) -> c' = c.
Proof.
  unfold pre_aliases, preprocess_coeffs. intros H1 H2. destruct (ensure_axes ax ndim) as [a|]; [|discriminate]. destruct (get_default_axes ndim) as [dax|]; [|discriminate].
  destruct (pc_items c) as [|v l] eqn:Ei; [discriminate|]. destruct v as [t| | |]; try discriminate. apply andb_true_iff in H1 as [H1 H3]. apply Nat.eqb_eq in H3.
  destruct (Nat.leb ndim 0); [discriminate|]. cbn [check_if_tensor rbind] in H2. destruct (negb (is_dtype_supported (tdtype t))); [discriminate|]. cbn [rbind] in H2. rewrite H1 in H2. cbn [rbind] in H2. rewrite Ei in H2.
  unfold rank in H3. rewrite H3 in H2. destruct (Nat.ltb_spec (ndim + 1) ndim); [lia|]. destruct (Nat.eqb_spec (ndim + 1) ndim); [lia|]. rewrite Nat.ltb_irrefl in H2. cbn [rbind] in H2. injection H2 as <- _. reflexivity.
Qed.
(** whatever the outcome of the call: nothing changes unless the coefficients have rank 4 and the axes are the default
    ones; in that case the only change is that detail dictionaries have the entry aaa set *)
Theorem C20_MatrixWaverec3_containers (r : mwaverecn K) cs : let cs' := snd (mr3_call LA r cs) in
  ((forall t l, cs = PT t :: l -> rank t <> 4%nat) \/ rn_axes r <> [-3; -2; -1]%Z -> cs' = cs) /\
  Forall2 (fun v v' : pyval K => v' = v \/ exists d l, v = PDict d /\ v' = PDict (dict_set d "aaa" l)) cs cs'.
Proof.
  intros cs'. assert (Hrefl : forall l : list (pyval K), Forall2 (fun v v' : pyval K => v' = v \/ exists d l, v = PDict d /\ v' = PDict (dict_set d "aaa" l)) l l) by (induction l; constructor; auto).
  enough (G : cs' = cs \/ (pre_aliases (mkPC false cs) 3 (AxSeq (rn_axes r)) = true /\ Forall2 (fun v v' : pyval K => v' = v \/ exists d l, v = PDict d /\ v' = PDict (dict_set d "aaa" l)) cs cs')).
  { destruct G as [->|[Ha G]]; [auto|]. split; [|exact G]. intros Hn. exfalso. unfold pre_aliases in Ha. cbn [pc_items] in Ha. unfold ensure_axes in Ha.
    destruct (Nat.eqb (List.length (rn_axes r)) 3); [|discriminate]. destruct (check_axes_argument (rn_axes r)) as [u|]; cbn [rbind] in Ha; [|discriminate]. cbn in Ha.
    destruct cs as [|[t| | |] l]; try discriminate. apply andb_true_iff in Ha as [H1 H2]. apply Nat.eqb_eq in H2. destruct Hn as [Hn|Hn]; [exact (Hn t l eq_refl H2)|]. apply Hn. apply list_eqb_Z_spec. exact H1. }
  unfold cs', mr3_call.
  match goal with |- context [match ?p with Ok _ => _ | Raise _ => _ end] => destruct p as [[[[items ds] g'] hs]|e] eqn:Ep end; [|left; reflexivity].
  apply rbind_ok in Ep as ([c ds'] & Hp & Ep). apply rbind_ok in Ep as (g0 & Hck & Ep). apply rbind_ok in Ep as (hsq & Hh & Ep). apply rbind_ok in Ep as (hs0 & Hh2 & Ep). apply unpack_inv in Hh2 as [Hh2 ->]. cbn [fst snd] in *. injection Ep as <- <- <- <-.
  cbv zeta. destruct (prepare_rec_n LA r _ _ _) as [r' [e|]]; [left; reflexivity|].
  destruct (pc_items c) as [|[t| | |] his] eqn:Ei; try (left; reflexivity).
  pose proof (mr3_loop_eff (from_level (rn_mats r') (List.length (PT t :: his) - 1)) his t) as HE.
  destruct (mr3_loop _ t his) as [y his']. cbn [snd] in HE |- *. destruct (pre_aliases _ _ _) eqn:Ea; [|left; reflexivity]. right. split; [reflexivity|].
  rewrite (pre_aliases_id _ _ _ _ _ Ea Hp) in Ei. cbn [pc_items] in Ei. rewrite Ei. constructor; [left; reflexivity|exact HE].
Qed.

Section Gen.
Variables (w : wavelet K) (method : string) (L : nat) (g : tag) (sep : bool) (dimok : list nat -> Prop).
Hypothesis Hdim : forall (f : nat -> nat) s, dimok s -> dimok (map f s).
Variables lm ls : list nat -> list (smat K).
Hypothesis Hlm : forall s, dimok s -> Forall (fun n => (L <= n)%nat) s -> Forall (fun n => (n mod 2 = 0)%nat) s -> level_mats_a LA sep g w method s = Ok (lm s).
Hypothesis Hls : forall s, dimok s -> Forall (fun n => (L <= n)%nat) s -> Forall (fun n => (n mod 2 = 0)%nat) s -> level_mats_s LA sep g w method s = Ok (ls s).
Hypothesis Hdl : List.length (dec_lo w) = L.
Hypothesis Hrl : List.length (rec_lo w) = L.
Notation fresh level odd axes := (mkMWN w level axes method odd sep None [] [] false []).
Notation freshr axes := (mkMRN w axes method sep [] None None false).

Definition wn_good (o : mwavedecn K) (odd : option string) (axes : list Z) (l : Z) : Prop := wn_conf w method sep o odd axes /\ wn_level o = Some l /\ wn_cached L dimok lm o.
Lemma prepare_n_same o odd axes s l : wn_good o odd axes l -> dimok s ->
  snd (prepare_n LA o s g) = snd (prepare_n LA (fresh (Some l) odd axes) s g) /\
  (snd (prepare_n LA o s g) = None -> fst (prepare_n LA o s g) = fst (prepare_n LA (fresh (Some l) odd axes) s g)) /\
  wn_good (fst (prepare_n LA o s g)) odd axes l.
Proof.
  intros (Hc & Hl & Hinv) Hs. destruct (Z.leb_spec l 0) as [Hl0|Hl0].
  - assert (E : forall q : mwavedecn K, wn_level q = Some l -> prepare_n LA q s g = (with_state_n q s (Some l) (wn_mats q, wn_pads q, wn_padded q, wn_sizes q), Some ValueError)).
    { intros q Hq. unfold prepare_n. rewrite Hq. destruct (Z.leb_spec l 0); [reflexivity|lia]. }
    rewrite (E o Hl), (E (fresh (Some l) odd axes) eq_refl). cbn [fst snd]. split; [reflexivity|]. split; [discriminate|].
    split; [destruct Hc as (H1 & H2 & H3 & H4 & H5); repeat split; assumption|]. split; [reflexivity|]. left. cbn [with_state_n wn_mats].
    destruct Hinv as [Hi|(s0 & lev & _ & _ & I2 & I3 & _)]; [exact Hi|]. rewrite Hl in I2. injection I2 as <-. replace (Z.to_nat l) with 0%nat in I3 by lia. exact I3.
  - assert (Hlev : wn_lev w (Some l) s = Ok l) by (unfold wn_lev; destruct (Z.leb_spec l 0); [lia|reflexivity]).
    rewrite (prepare_n_eq LA w method L g sep dimok Hdim lm Hlm Hdl o odd axes s l Hc Hs Hinv) by (rewrite Hl; exact Hlev).
    rewrite (prepare_n_eq LA w method L g sep dimok Hdim lm Hlm Hdl (fresh (Some l) odd axes) odd axes s l); [|repeat split|exact Hs|left; reflexivity|exact Hlev].
    split; [reflexivity|]. split; [reflexivity|]. split; [repeat split|]. split; [reflexivity|]. apply ready_cached, Hs.
Qed.
(** a call that prepares and then computes something from the prepared object *)
Lemma mwn_same N (go : mwavedecn K -> tensor K -> list nat -> result (pycoeffs K)) o odd axes l x :
  (forall t ds, preprocess_tensor x N (AxSeq axes) false = Ok (t, ds) -> dimok (tl (shp t))) -> ttag x = g -> wn_good o odd axes l ->
  let call q := match preprocess_tensor x N (AxSeq (wn_axes q)) false with
    | Raise e => (q, Raise e)
    | Ok (t, ds) => let '(o', err) := prepare_n LA q (tl (shp t)) (ttag t) in match err with Some e => (o', Raise e) | None => (o', go o' t ds) end
    end in
  snd (call o) = snd (call (fresh (Some l) odd axes)) /\ wn_good (fst (call o)) odd axes l.
Proof.
  intros Hd Hg Ho call. unfold call. pose proof Ho as ((_ & _ & _ & _ & Ea) & _ & _). rewrite Ea. cbn [wn_axes].
  destruct (preprocess_tensor x N (AxSeq axes) false) as [[t ds]|e] eqn:Ep; [|cbn [fst snd]; auto].
  rewrite (preprocess_tensor_tag _ _ _ _ _ _ Ep), Hg. destruct (prepare_n_same o odd axes (tl (shp t)) l Ho (Hd t ds eq_refl)) as (H1 & H2 & H3).
  destruct (prepare_n LA o (tl (shp t)) g) as [o1 e1]. destruct (prepare_n LA (fresh (Some l) odd axes) (tl (shp t)) g) as [o2 e2]. cbn [fst snd] in H1, H2, H3. subst e2.
  destruct e1 as [e|]; cbn [fst snd]; [auto|]. rewrite (H2 eq_refl) in *. auto.
Qed.
Lemma mw2_same o odd axes l x : (forall t ds, preprocess_tensor x 2 (AxSeq axes) false = Ok (t, ds) -> dimok (tl (shp t))) -> ttag x = g -> wn_good o odd axes l ->
  snd (mw2_call LA o x) = snd (mw2_call LA (fresh (Some l) odd axes) x) /\ wn_good (fst (mw2_call LA o x)) odd axes l.
Proof. apply (mwn_same 2 _ o odd axes l x). Qed.
Lemma mw3_same o odd axes l x : (forall t ds, preprocess_tensor x 3 (AxSeq axes) false = Ok (t, ds) -> dimok (tl (shp t))) -> ttag x = g -> wn_good o odd axes l ->
  snd (mw3_call LA o x) = snd (mw3_call LA (fresh (Some l) odd axes) x) /\ wn_good (fst (mw3_call LA o x)) odd axes l.
Proof. apply (mwn_same 3 _ o odd axes l x). Qed.
(** level=None: the first call with a positive level is that of an object with this level *)
Lemma mwn_default N (go : mwavedecn K -> tensor K -> list nat -> result (pycoeffs K)) odd axes lev x :
  (forall t ds, preprocess_tensor x N (AxSeq axes) false = Ok (t, ds) -> dimok (tl (shp t)) /\ mat_level_n (get_len w) (tl (shp t)) = Ok lev) -> ttag x = g -> (0 < lev)%Z ->
  let call q := match preprocess_tensor x N (AxSeq (wn_axes q)) false with
    | Raise e => (q, Raise e)
    | Ok (t, ds) => let '(o', err) := prepare_n LA q (tl (shp t)) (ttag t) in match err with Some e => (o', Raise e) | None => (o', go o' t ds) end
    end in
  snd (call (fresh None odd axes)) = snd (call (fresh (Some lev) odd axes)) /\
  ((exists t ds, preprocess_tensor x N (AxSeq axes) false = Ok (t, ds)) -> fst (call (fresh None odd axes)) = fst (call (fresh (Some lev) odd axes))).
Proof.
  intros Hd Hg Hpos call. unfold call. cbn [wn_axes].
  destruct (preprocess_tensor x N (AxSeq axes) false) as [[t ds]|e] eqn:Ep; [|cbn [fst snd]; split; [reflexivity|intros (? & ? & ?); discriminate]].
  rewrite (preprocess_tensor_tag _ _ _ _ _ _ Ep), Hg. destruct (Hd t ds eq_refl) as [Hd1 Hd2].
  rewrite (prepare_n_eq LA w method L g sep dimok Hdim lm Hlm Hdl (fresh None odd axes) odd axes (tl (shp t)) lev); [|repeat split|exact Hd1|left; reflexivity|exact Hd2].
  rewrite (prepare_n_eq LA w method L g sep dimok Hdim lm Hlm Hdl (fresh (Some lev) odd axes) odd axes (tl (shp t)) lev); [|repeat split|exact Hd1|left; reflexivity|].
  - auto.
  - unfold wn_lev. cbn [wn_level]. destruct (Z.leb_spec lev 0); [lia|reflexivity].
Qed.

Definition rn_good (r : mwaverecn K) (axes : list Z) : Prop := rn_conf w method sep r axes /\ rn_cached L dimok ls r.
Lemma prepare_rec_same r axes s lvl : rn_good r axes -> dimok s -> exists r1 r2,
  prepare_rec_n LA r s lvl g = (r1, None) /\ prepare_rec_n LA (freshr axes) s lvl g = (r2, None) /\ rn_good r1 axes /\ rn_conf w method sep r2 axes /\ rn_mats r1 = rn_mats r2.
Proof.
  intros (Hc & Hi) Hs. destruct (prepare_rec_n_ok LA w method L g sep dimok Hdim ls Hls Hrl r axes s lvl Hc Hs Hi) as (r1 & P1 & P2 & P3 & P4 & _).
  destruct (prepare_rec_n_ok LA w method L g sep dimok Hdim ls Hls Hrl (freshr axes) axes s lvl) as (r2 & Q1 & Q2 & Q3 & _); [repeat split|exact Hs|left; reflexivity|].
  exists r1, r2. split; [exact P1|]. split; [exact Q1|]. split; [split; assumption|]. split; [exact Q2|]. congruence.
Qed.
Lemma mr2_same r axes cs : (forall t, In t (pc_tensors (mkPC false cs)) -> ttag t = g) ->
  (forall hs, List.length hs = 2%nat -> dimok (map (fun n => n * 2)%nat hs)) ->
  rn_good r axes -> snd (mr2_call LA r cs) = snd (mr2_call LA (freshr axes) cs) /\ rn_good (fst (mr2_call LA r cs)) axes.
Proof.
  intros Hcs Hd Hr. unfold mr2_call. pose proof Hr as ((_ & _ & _ & Ea) & _). rewrite Ea. cbn [rn_axes].
  destruct (let* pc := preprocess_coeffs (mkPC false cs) 2 (AxSeq axes) false in let* g := check_same_device_dtype (fst pc) in let* hs0 := head_shape (last (pc_items (fst pc)) POther) in let* hs := unpack 2 hs0 in Ok (pc_items (fst pc), snd pc, g, hs)) as [[[[items ds] g'] hs]|e] eqn:Ep; [|cbn [fst snd]; auto].
  apply rbind_ok in Ep as ([c ds'] & Hp & Ep). apply rbind_ok in Ep as (g0 & Hck & Ep). apply rbind_ok in Ep as (hsq & Hh & Ep). apply rbind_ok in Ep as (hs0 & Hh2 & Ep). apply unpack_inv in Hh2 as [Hh2 ->]. cbn [fst snd] in *. injection Ep as <- <- <- <-.
  rewrite (same_tag g cs 2 (AxSeq axes) c ds' g0 Hcs Hp Hck).
  destruct (prepare_rec_same r axes (map (fun n => n * 2)%nat hsq) (List.length (pc_items c) - 1) Hr (Hd hsq Hh2)) as (r1 & r2 & E1 & E2 & G1 & (_ & _ & C3 & C4) & Em).
  rewrite E1, E2. cbn [fst snd]. split; [|exact G1]. pose proof G1 as ((_ & _ & D3 & D4) & _). rewrite Em, C3, C4, D3, D4. reflexivity.
Qed.
Lemma mr3_same r axes cs : (forall t, In t (pc_tensors (mkPC false cs)) -> ttag t = g) -> (forall s, dimok s) ->
  rn_good r axes -> snd (fst (mr3_call LA r cs)) = snd (fst (mr3_call LA (freshr axes) cs)) /\ snd (mr3_call LA r cs) = snd (mr3_call LA (freshr axes) cs) /\ rn_good (fst (fst (mr3_call LA r cs))) axes.
Proof.
  intros Hcs Hd Hr. unfold mr3_call. pose proof Hr as ((_ & _ & _ & Ea) & _). rewrite Ea. cbn [rn_axes].
  match goal with |- context [match ?p with Ok _ => _ | Raise _ => _ end] => destruct p as [[[[items ds] g'] hs]|e] eqn:Ep end; [|cbn [fst snd]; auto].
  apply rbind_ok in Ep as ([c ds'] & Hp & Ep). apply rbind_ok in Ep as (g0 & Hck & Ep). apply rbind_ok in Ep as (hsq & Hh & Ep). apply rbind_ok in Ep as (hs0 & Hh2 & Ep). apply unpack_inv in Hh2 as [Hh2 ->]. cbn [fst snd] in *. injection Ep as <- <- <- <-.
  rewrite (same_tag g cs 3 (AxSeq axes) c ds' g0 Hcs Hp Hck). cbv zeta.
  destruct (prepare_rec_same r axes (map (fun n => n * 2)%nat hsq) (List.length (pc_items c) - 1) Hr (Hd _)) as (r1 & r2 & E1 & E2 & G1 & (_ & _ & C3 & C4) & Em).
  rewrite E1, E2. pose proof G1 as ((_ & _ & D3 & D4) & _). rewrite Em, C4, D4. clear E1 E2.
  destruct (pc_items c) as [|[t| | |] his]; cbn [fst snd]; auto.
  match goal with |- context [mr3_loop ?a ?b ?d] => destruct (mr3_loop a b d) end. cbn [fst snd]. auto.
Qed.
End Gen.

Hypothesis HD : domain K.
Hypothesis HR : formally_real K.
Section Bank.
Variables (w : wavelet K) (L : nat) (method : string).
Hypothesis HLA : la_ok LA method.
Hypothesis B : orthogonal_bank L (dec_lo w) (dec_hi w) (rec_lo w) (rec_hi w).
Hypothesis HI : boundary_independent L (dec_lo w) (dec_hi w).
Let HL := ob_two _ _ _ _ _ B.
Let Hdl := ob_len_lo _ _ _ _ _ B.
Let Hrl : List.length (rec_lo w) = L := bank_rl w L B.
Let Htr g n := boundary_s_transpose LA g w n L method B.
Let HA g := bank_mats LA HD HR g w L method HLA B HI.
Let Hlm g : forall s, anyd s -> Forall (fun n => (L <= n)%nat) s -> Forall (fun n => (n mod 2 = 0)%nat) s -> level_mats_a LA true g w method s = Ok (lmS LA w method g s).
Proof. intros s _. apply (lmS_a LA w method L g (HA g) s). Qed.
Let Hls g : forall s, anyd s -> Forall (fun n => (L <= n)%nat) s -> Forall (fun n => (n mod 2 = 0)%nat) s -> level_mats_s LA true g w method s = Ok (map sp_t (lmS LA w method g s)).
Proof. intros s _. apply (lmS_s LA w method L g (HA g) (Htr g) s). Qed.

(** C42, explicit level: on any sequence of inputs of one dtype and device every call gives what a fresh object gives *)
Theorem C42_wavedec2 g l axes odd o xs : new_mwavedecn 2 w (Some l) (AxSeq axes) method odd true = Ok o -> Forall (fun x => ttag x = g) xs ->
  mwn_run (mw2_call LA) o xs = map (fun x => snd (mw2_call LA o x)) xs.
Proof.
  intros Ho Hxs. apply new_mwn_inv in Ho as [Hl ->].
  assert (G : forall o, wn_good w method L true anyd (lmS LA w method g) o odd axes l -> mwn_run (mw2_call LA) o xs = map (fun x => snd (mw2_call LA (mkMWN w (Some l) axes method odd true None [] [] false []) x)) xs).
  { induction Hxs as [|x xs Hg _ IH]; intros o Ho; [reflexivity|]. cbn [mwn_run map]. cbv zeta.
    destruct (mw2_same w method L g true anyd anyd_map (lmS LA w method g) (fun s => map sp_t (lmS LA w method g s)) (Hlm g) (Hls g) Hdl Hrl o odd axes l x (fun _ _ _ => I) Hg Ho) as [H1 H2]. rewrite H1. f_equal. apply IH, H2. }
  apply G. split; [repeat split|]. split; [reflexivity|]. left. reflexivity.
Qed.
Theorem C42_wavedec3 g l axes odd o xs : new_mwavedecn 3 w (Some l) (AxSeq axes) method odd true = Ok o -> Forall (fun x => ttag x = g) xs ->
  mwn_run (mw3_call LA) o xs = map (fun x => snd (mw3_call LA o x)) xs.
Proof.
  intros Ho Hxs. apply new_mwn_inv in Ho as [Hl ->].
  assert (G : forall o, wn_good w method L true anyd (lmS LA w method g) o odd axes l -> mwn_run (mw3_call LA) o xs = map (fun x => snd (mw3_call LA (mkMWN w (Some l) axes method odd true None [] [] false []) x)) xs).
  { induction Hxs as [|x xs Hg _ IH]; intros o Ho; [reflexivity|]. cbn [mwn_run map]. cbv zeta.
    destruct (mw3_same w method L g true anyd anyd_map (lmS LA w method g) (fun s => map sp_t (lmS LA w method g s)) (Hlm g) (Hls g) Hdl Hrl o odd axes l x (fun _ _ _ => I) Hg Ho) as [H1 H2]. rewrite H1. f_equal. apply IH, H2. }
  apply G. split; [repeat split|]. split; [reflexivity|]. left. reflexivity.
Qed.
Theorem C42_waverec2 g axes r css : new_mwaverecn 2 w (AxSeq axes) method true = Ok r ->
  Forall (fun cs => forall t, In t (pc_tensors (mkPC false cs)) -> ttag t = g) css ->
  mrn_run (mr2_call LA) r css = map (fun cs => snd (mr2_call LA r cs)) css.
Proof.
  intros Hr Hcs. apply new_mrn_inv in Hr as [Hl ->].
  assert (G : forall r, rn_good w method L true anyd (fun s => map sp_t (lmS LA w method g s)) r axes -> mrn_run (mr2_call LA) r css = map (fun cs => snd (mr2_call LA (mkMRN w axes method true [] None None false) cs)) css).
  { induction Hcs as [|cs css Hg _ IH]; intros r Hr; [reflexivity|]. cbn [mrn_run map]. cbv zeta.
    destruct (mr2_same w method L g true anyd anyd_map (fun s => map sp_t (lmS LA w method g s)) (Hls g) Hrl r axes cs Hg (fun _ _ => I) Hr) as [H1 H2]. rewrite H1. f_equal. apply IH, H2. }
  apply G. split; [repeat split|]. left. reflexivity.
Qed.
(** also the effect on the caller's coefficients does not depend on the history *)
Theorem C42_waverec3 g axes r css : new_mwaverecn 3 w (AxSeq axes) method true = Ok r ->
  Forall (fun cs => forall t, In t (pc_tensors (mkPC false cs)) -> ttag t = g) css ->
  mrn_run mr3_res r css = map (fun cs => snd (mr3_res r cs)) css.
Proof.
  intros Hr Hcs. apply new_mrn_inv in Hr as [Hl ->].
  assert (G : forall r, rn_good w method L true anyd (fun s => map sp_t (lmS LA w method g s)) r axes -> mrn_run mr3_res r css = map (fun cs => snd (mr3_res (mkMRN w axes method true [] None None false) cs)) css).
  { induction Hcs as [|cs css Hg _ IH]; intros r Hr; [reflexivity|]. cbn [mrn_run map]. cbv zeta.
    destruct (mr3_same w method L g true anyd anyd_map (fun s => map sp_t (lmS LA w method g s)) (Hls g) Hrl r axes cs Hg (fun _ => I) Hr) as (H1 & _ & H2). change (snd (mr3_res r cs) :: mrn_run mr3_res (fst (mr3_res r cs)) css = snd (mr3_res (mkMRN w axes method true [] None None false) cs) :: map (fun cs => snd (mr3_res (mkMRN w axes method true [] None None false) cs)) css).
    unfold mr3_res at 1 4. rewrite H1. f_equal. apply IH, H2. }
  apply G. split; [repeat split|]. left. reflexivity.
Qed.

(** level=None: the first accepted input that has a level fixes the level *)
Theorem C42_wavedec2_default g m axes o x o' c xs : new_mwavedecn 2 w None (AxSeq axes) method (Some (mode_name m)) true = Ok o ->
  wf x -> ttag x = g -> Forall (fun x => ttag x = g) xs -> mw2_call LA o x = (o', Ok c) -> (2 <= List.length (pc_items c))%nat ->
  exists lev ol, default_depth L (gather (map (norm_axis (rank x)) axes) 0%nat (shp x)) (Z.to_nat lev) /\ (0 < lev)%Z /\
    new_mwavedecn 2 w (Some lev) (AxSeq axes) method (Some (mode_name m)) true = Ok ol /\
    mwn_run (mw2_call LA) o (x :: xs) = map (fun x => snd (mw2_call LA ol x)) (x :: xs).
Proof.
  intros Ho Hw Hg Hxs Hc Hlen. destruct (coefficients2 LA HD HR w L method m HLA B HI None axes o x o' c Hw Ho Hc) as (lev & A & Hlev & _ & Hcc).
  assert (Hpos : (0 < lev)%Z).
  { destruct (Z.ltb_spec 0 lev) as [|Hn]; [assumption|]. rewrite Hcc in Hlen. unfold bwn2_coeffs in Hlen. cbn [pc_items List.length] in Hlen. rewrite map_length, rev_length, seq_length in Hlen. replace (Z.to_nat lev) with 0%nat in Hlen by lia. cbn in Hlen. lia. }
  assert (Hol : new_mwavedecn 2 w (Some lev) (AxSeq axes) method (Some (mode_name m)) true = Ok (mkMWN w (Some lev) axes method (Some (mode_name m)) true None [] [] false [])).
  { pose proof Ho as Ho'. unfold new_mwavedecn in Ho' |- *. apply rbind_ok in Ho' as (axs & Ha & Ho'). rewrite Ha. cbn [rbind]. destruct (negb (orth_supported method)); [discriminate|]. destruct (negb _); [discriminate|].
    destruct (new_mwn_inv 2 w None axes method (Some (mode_name m)) true o Ho) as [_ ->]. injection Ho' as ->. reflexivity. }
  exists lev, (mkMWN w (Some lev) axes method (Some (mode_name m)) true None [] [] false []). split; [apply mat_level_n_depth; [exact HL|rewrite <- Hdl; exact Hlev]|]. split; [exact Hpos|]. split; [exact Hol|].
  rewrite <- (C42_wavedec2 g lev axes (Some (mode_name m)) _ (x :: xs) Hol) by (constructor; auto).
  apply new_mwn_inv in Ho as [Hl ->]. cbn [mwn_run]. cbv zeta.
  destruct (mw2_call_inv LA (mkMWN w None axes method (Some (mode_name m)) true None [] [] false []) o' axes x c Hw eq_refl Hl Hc) as (Hdt & Hax & _).
  assert (Hpre : preprocess_tensor x 2 (AxSeq axes) false = Ok (pre_t (map (norm_axis (rank x)) axes) x, fsz (map (norm_axis (rank x)) axes) (shp x) ++ gather (map (norm_axis (rank x)) axes) 0%nat (shp x))).
  { apply (preprocess_tensor_ok x 2 (AxSeq axes) axes false Hw Hdt); try lia; try assumption; try (cbn; rewrite Hl); reflexivity. }
  edestruct (mwn_default w method L g true anyd anyd_map (lmS LA w method g) (fun s => map sp_t (lmS LA w method g s)) (Hlm g) (Hls g) Hdl Hrl 2) as [H1 H2]; [intros t ds Ht; rewrite Hpre in Ht; injection Ht as <- <-; split; [exact I|exact Hlev]|exact Hg|exact Hpos|].
  specialize (H2 ltac:(eexists; eexists; exact Hpre)).
  refine (f_equal2 cons H1 (f_equal (fun q => mwn_run (mw2_call LA) q xs) H2)).
Qed.

(** level=None: the first accepted input that has a level fixes the level *)
Theorem C42_wavedec3_default g m axes o x o' c xs : new_mwavedecn 3 w None (AxSeq axes) method (Some (mode_name m)) true = Ok o ->
  wf x -> ttag x = g -> Forall (fun x => ttag x = g) xs -> mw3_call LA o x = (o', Ok c) -> (2 <= List.length (pc_items c))%nat ->
  exists lev ol, default_depth L (gather (map (norm_axis (rank x)) axes) 0%nat (shp x)) (Z.to_nat lev) /\ (0 < lev)%Z /\
    new_mwavedecn 3 w (Some lev) (AxSeq axes) method (Some (mode_name m)) true = Ok ol /\
    mwn_run (mw3_call LA) o (x :: xs) = map (fun x => snd (mw3_call LA ol x)) (x :: xs).
Proof.
  intros Ho Hw Hg Hxs Hc Hlen. destruct (coefficients3 LA HD HR w L method m HLA B HI None axes o x o' c Hw Ho Hc) as (lev & A & Hlev & _ & Hcc).
  assert (Hpos : (0 < lev)%Z).
  { destruct (Z.ltb_spec 0 lev) as [|Hn]; [assumption|]. rewrite Hcc in Hlen. unfold bwn3_coeffs in Hlen. cbn [pc_items List.length] in Hlen. rewrite map_length, rev_length, seq_length in Hlen. replace (Z.to_nat lev) with 0%nat in Hlen by lia. cbn in Hlen. lia. }
  assert (Hol : new_mwavedecn 3 w (Some lev) (AxSeq axes) method (Some (mode_name m)) true = Ok (mkMWN w (Some lev) axes method (Some (mode_name m)) true None [] [] false [])).
  { pose proof Ho as Ho'. unfold new_mwavedecn in Ho' |- *. apply rbind_ok in Ho' as (axs & Ha & Ho'). rewrite Ha. cbn [rbind]. destruct (negb (orth_supported method)); [discriminate|]. destruct (negb _); [discriminate|].
    destruct (new_mwn_inv 3 w None axes method (Some (mode_name m)) true o Ho) as [_ ->]. injection Ho' as ->. reflexivity. }
  exists lev, (mkMWN w (Some lev) axes method (Some (mode_name m)) true None [] [] false []). split; [apply mat_level_n_depth; [exact HL|rewrite <- Hdl; exact Hlev]|]. split; [exact Hpos|]. split; [exact Hol|].
  rewrite <- (C42_wavedec3 g lev axes (Some (mode_name m)) _ (x :: xs) Hol) by (constructor; auto).
  apply new_mwn_inv in Ho as [Hl ->]. cbn [mwn_run]. cbv zeta.
  destruct (mw3_call_inv LA (mkMWN w None axes method (Some (mode_name m)) true None [] [] false []) o' axes x c Hw eq_refl Hl Hc) as (Hdt & Hax & _).
  assert (Hpre : preprocess_tensor x 3 (AxSeq axes) false = Ok (pre_t (map (norm_axis (rank x)) axes) x, fsz (map (norm_axis (rank x)) axes) (shp x) ++ gather (map (norm_axis (rank x)) axes) 0%nat (shp x))).
  { apply (preprocess_tensor_ok x 3 (AxSeq axes) axes false Hw Hdt); try lia; try assumption; try (cbn; rewrite Hl); reflexivity. }
  edestruct (mwn_default w method L g true anyd anyd_map (lmS LA w method g) (fun s => map sp_t (lmS LA w method g s)) (Hlm g) (Hls g) Hdl Hrl 3) as [H1 H2]; [intros t ds Ht; rewrite Hpre in Ht; injection Ht as <- <-; split; [exact I|exact Hlev]|exact Hg|exact Hpos|].
  specialize (H2 ltac:(eexists; eexists; exact Hpre)).
  refine (f_equal2 cons H1 (f_equal (fun q => mwn_run (mw3_call LA) q xs) H2)).
Qed.
End Bank.
End PN2.
