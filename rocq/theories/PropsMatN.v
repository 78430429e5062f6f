(** C43, C45 and the 2d / 3d part of C42: MatrixWavedec2/3 and MatrixWaverec2/3. *)
From Coq Require Import List Arith ZArith Lia Bool String Ring.
From Coq Require Import ZifyNat ZifyBool.
From Verif Require Import Base Sums Tensor TensorFacts Util Perm Plumb Accept Spec Conv1 Conv2 PadFacts CoreFacts AnalysisInv Synthesis Filters Wave1 Wave1Inv Rec1 RecN Sep SepFacts Lin Sparse SparseFacts SpecMat SpecMatN SparseMM LinAlg GramSchmidt Mat1 MatN MatOrth Boundary MatPre Mat1Facts Mat1Call Tags PropsMat1 MatNFacts MatNLoop MatNSep MatNCall.
Import ListNotations.
Ltac Zify.zify_post_hook ::= Z.div_mod_to_equations.
Local Arguments Nat.div : simpl never.
Local Arguments Nat.modulo : simpl never.

Lemma prodl_pos l : 0 < prodl l <-> Forall (fun n => 0 < n) l.
Proof.
  induction l as [|n l IH]; [cbn; split; auto; lia|]. rewrite prodl_cons. split.
  - intros H. constructor; [nia|]. apply IH. nia.
  - intros H. inversion H; subst. apply IH in H3. nia.
Qed.
(** no untouched axis is empty *)
Definition batch_nonempty {K : CRing} (nax : list nat) (x : tensor K) : Prop := forall d, d < List.length (shp x) -> ~ In d nax -> 0 < nth d (shp x) 0.
Lemma fsz_pos {K : CRing} (nax : list nat) (x : tensor K) : batch_nonempty nax x <-> 0 < prodl (fsz nax (shp x)).
Proof.
  unfold batch_nonempty, fsz, gather. rewrite prodl_pos, Forall_forall. split.
  - intros H n Hn. apply in_map_iff in Hn as (d & <- & Hd). apply in_front in Hd as [H1 H2]. apply H; assumption.
  - intros H d Hd Hi. apply H, in_map_iff. exists d. split; [reflexivity|]. apply in_front. auto.
Qed.
Lemma nth_upds_map (nax : list nat) (f : nat -> nat) s d : (forall d, In d nax -> d < List.length s) -> In d nax -> nth d (upds nax (map f nax) s) 0 = f d.
Proof.
  intros Hlt. induction nax as [|a nax IH]; intros Hd; [destruct Hd|]. cbn [map upds]. destruct (Nat.eq_dec a d) as [->|Hne].
  - apply nth_updn_eq. rewrite upds_length. apply Hlt. left. reflexivity.
  - rewrite nth_updn_ne by congruence. apply IH; [intros e He; apply Hlt; right; exact He|]. destruct Hd; [congruence|assumption].
Qed.

Section PN.
Context {K : CRing}.
Add Ring Kring : (cr_th K).
Open Scope K_scope.
Implicit Types (t u x : tensor K) (w : wavelet K).
Variable LA : linalg K.

Lemma new_mwn_inv N w level axes method odd sep o : new_mwavedecn N w level (AxSeq axes) method odd sep = Ok o ->
  List.length axes = N /\ o = mkMWN w level axes method odd sep None [] [] false [].
Proof.
  unfold new_mwavedecn, ensure_axes. destruct (Nat.eqb_spec (List.length axes) N); [|discriminate]. intros H. apply rbind_ok in H as (ax & Ha & H). apply rbind_ok in Ha as (u & _ & Ha). injection Ha as <-.
  destruct (negb (orth_supported method)); [discriminate|]. destruct (negb _); [discriminate|]. injection H as <-. auto.
Qed.
Lemma new_mrn_inv N w axes method sep r : new_mwaverecn N w (AxSeq axes) method sep = Ok r -> List.length axes = N /\ r = mkMRN w axes method sep [] None None false.
Proof.
  unfold new_mwaverecn, ensure_axes. destruct (Nat.eqb_spec (List.length axes) N); [|discriminate]. intros H. apply rbind_ok in H as (ax & Ha & H). apply rbind_ok in Ha as (u & _ & Ha). injection Ha as <-.
  destruct (negb (orth_supported method)); [discriminate|]. destruct (negb _); [discriminate|]. injection H as <-. auto.
Qed.
Lemma prepare_n_raise (o : mwavedecn K) s g e : wn_lev (wn_wav o) (wn_level o) s = Raise e -> exists o', prepare_n LA o s g = (o', Some e).
Proof.
  unfold wn_lev, prepare_n. destruct (wn_level o) as [l|].
  - destruct (l <=? 0)%Z; [|discriminate]. intros H. injection H as <-. eauto.
  - intros ->. cbn [rbind]. eauto.
Qed.
(** a call that returns: what that says about the input *)
Lemma mwn_pre_inv N (o : mwavedecn K) axes x (go : mwavedecn K -> tensor K -> list nat -> result (pycoeffs K)) o' c : wf x -> wn_axes o = axes -> List.length axes = N -> (0 < N)%nat ->
  match preprocess_tensor x N (AxSeq axes) false with
  | Raise e => (o, Raise e)
  | Ok (t, ds) => let '(o', err) := prepare_n LA o (tl (shp t)) (ttag t) in match err with Some e => (o', Raise e) | None => (o', go o' t ds) end
  end = (o', Ok c) ->
  is_dtype_supported (tdtype x) = true /\ axes_ok (rank x) axes /\
  exists lev, wn_lev (wn_wav o) (wn_level o) (gather (map (norm_axis (rank x)) axes) 0%nat (shp x)) = Ok lev.
Proof.
  intros Hw Ea Hl HN H. destruct (preprocess_tensor x N (AxSeq axes) false) as [[t ds]|e] eqn:Ep; [|discriminate].
  destruct (preprocess_tensor_inv _ _ _ _ _ Ep) as (Hdt & _ & axes' & Hh & _ & Hax). cbn [hint_axes] in Hh. rewrite Hl, Nat.eqb_refl in Hh. injection Hh as <-.
  split; [exact Hdt|]. split; [exact Hax|].
  rewrite (preprocess_tensor_ok x N (AxSeq axes) axes false Hw Hdt) in Ep; auto; [|cbn; rewrite Hl, Nat.eqb_refl; reflexivity]. cbn match in Ep. injection Ep as <- <-.
  change (tl (shp (pre_t (map (norm_axis (rank x)) axes) x))) with (gather (map (norm_axis (rank x)) axes) 0%nat (shp x)) in H.
  destruct (wn_lev (wn_wav o) (wn_level o) (gather (map (norm_axis (rank x)) axes) 0%nat (shp x))) as [lev|e] eqn:El; [eauto|].
  destruct (prepare_n_raise o _ (ttag (pre_t (map (norm_axis (rank x)) axes) x)) e El) as [o1 E]. rewrite E in H. discriminate.
Qed.
Lemma mw2_call_inv (o o' : mwavedecn K) axes x c : wf x -> wn_axes o = axes -> List.length axes = 2%nat -> mw2_call LA o x = (o', Ok c) ->
  is_dtype_supported (tdtype x) = true /\ axes_ok (rank x) axes /\ exists lev, wn_lev (wn_wav o) (wn_level o) (gather (map (norm_axis (rank x)) axes) 0%nat (shp x)) = Ok lev.
Proof.
  intros Hw Ea Hl H. unfold mw2_call in H. rewrite Ea in H. eapply (mwn_pre_inv 2 o axes x _ o' c Hw Ea Hl ltac:(lia)). exact H.
Qed.
Lemma mw3_call_inv (o o' : mwavedecn K) axes x c : wf x -> wn_axes o = axes -> List.length axes = 3%nat -> mw3_call LA o x = (o', Ok c) ->
  is_dtype_supported (tdtype x) = true /\ axes_ok (rank x) axes /\ exists lev, wn_lev (wn_wav o) (wn_level o) (gather (map (norm_axis (rank x)) axes) 0%nat (shp x)) = Ok lev.
Proof.
  intros Hw Ea Hl H. unfold mw3_call in H. rewrite Ea in H. eapply (mwn_pre_inv 3 o axes x _ o' c Hw Ea Hl ltac:(lia)). exact H.
Qed.
(** an empty batch *)
Lemma batch_mm_empty m t n k : shp t = [0%nat; n; k] -> exists e, batch_mm m t = Raise e.
Proof.
  intros H. unfold batch_mm. rewrite H. destruct (negb (Nat.eqb (s_cols m) n)); [eauto|].
  destruct (reshape_last (transpose t 0 1) [s_cols m]) as [v|e]; cbn [rbind]; [|eauto]. destruct (sp_dense_mm m v) as [p|e]; cbn [rbind]; [|eauto].
  assert (E0 : prodl [s_rows m; 0%nat] = 0%nat) by apply Nat.mul_0_r. unfold reshape_last. rewrite E0. cbn. eauto.
Qed.

(** what the result of a reconstruction tells: the shape and the values *)
Definition rec_of (x y : tensor K) (nax : list nat) : Prop :=
  agrees_on x y /\ forall d, nth d (shp y) 0%nat = nth d (shp x) 0%nat \/ (In d nax /\ Nat.odd (nth d (shp x) 0%nat) = true /\ nth d (shp y) 0%nat = S (nth d (shp x) 0%nat)).
Lemma rec_of_refl x nax : rec_of x x nax.
Proof. split; [apply agrees_refl|]. auto. Qed.
Lemma odd_even_up n : even_up n = if Nat.odd n then S n else n.
Proof.
  unfold even_up. pose proof (Nat.div2_odd n) as Hk. pose proof (Nat.mod_upper_bound n 2 ltac:(lia)). destruct (Nat.odd n); cbn [Nat.b2n] in Hk; lia.
Qed.
Lemma rec_of_ext m nax x : wf x -> good_axes (rank x) nax -> rec_of x (ext_even m nax x) nax.
Proof.
  intros Hw Hg. split; [apply ext_even_agrees; assumption|]. intros d. rewrite shp_ext_even. destruct (in_dec Nat.eq_dec d nax) as [Hi|Hi].
  - assert (E : nth d (upds nax (map even_up (gather nax 0%nat (shp x))) (shp x)) 0%nat = even_up (nth d (shp x) 0%nat)).
    { destruct Hg as [Hn Hlt]. unfold gather. rewrite map_map. apply (nth_upds_map nax (fun d => even_up (nth d (shp x) 0%nat))); auto. }
    rewrite E, odd_even_up. destruct (Nat.odd (nth d (shp x) 0%nat)) eqn:Eo; auto.
  - left. apply nth_upds_notin, Hi.
Qed.

Lemma la_ok_sup method : la_ok LA method -> orth_supported method = true.
Proof. intros [(-> & _)|(-> & _)]; reflexivity. Qed.
Hypothesis HD : domain K.
Hypothesis HR : formally_real K.
Section Bank.
Variables (w : wavelet K) (L : nat) (method : string) (m : mode).
Hypothesis HLA : la_ok LA method.
Hypothesis B : orthogonal_bank L (dec_lo w) (dec_hi w) (rec_lo w) (rec_hi w).
Hypothesis HI : boundary_independent L (dec_lo w) (dec_hi w).
Let HL := ob_two _ _ _ _ _ B.
Let Hdl := ob_len_lo _ _ _ _ _ B.
Let Hrl : List.length (rec_lo w) = L := bank_rl w L B.
Let Htr g n := boundary_s_transpose LA g w n L method B.
Let HA g := bank_mats LA HD HR g w L method HLA B HI.
Notation An g := (Bm LA w method g).
Notation lm g := (lmS LA w method g).
Notation odd := (Some (mode_name m)).
Notation ks2 := [bLH; bHL; bHH].
Notation fresh level axes := (mkMWN w level axes method odd true None [] [] false []).

Let Hlm g : forall s, anyd s -> Forall (fun n => (L <= n)%nat) s -> Forall (fun n => (n mod 2 = 0)%nat) s -> level_mats_a LA true g w method s = Ok (lm g s).
Proof. intros s _. apply (lmS_a LA w method L g (HA g) s). Qed.
Let Hls g : forall s, anyd s -> Forall (fun n => (L <= n)%nat) s -> Forall (fun n => (n mod 2 = 0)%nat) s -> level_mats_s LA true g w method s = Ok (map sp_t (lm g s)).
Proof. intros s _. apply (lmS_s LA w method L g (HA g) (Htr g) s). Qed.
Let any2 : forall s, List.length s = 2%nat -> anyd s := fun _ _ => I.
Let okb (b J : nat) : Prop := (0 < J)%nat -> (0 < b)%nat.

Lemma sep_run g (o : mwavedecn K) J t b h v rest : wn_wav o = w -> wn_odd o = odd -> wn_sep o = true ->
  wn_mats o = bmatsN (lm g) J [h; v] -> wn_pads o = bpadsN J [h; v] -> wn_sizes o = bsizesN J [h; v] ++ rest ->
  wf t -> shp t = [b; h; v] -> ttag t = g -> fitsN L J [h; v] -> okb b J ->
  run2 o t = Ok (Nat.iter J (bandc (tprod (An g)) m bLL) t, map (fun j => detsK (tprod (An g)) m ks2 (Nat.iter j (bandc (tprod (An g)) m bLL) t)) (rev (seq 0 J))).
Proof.
  intros E1 E2 E3 E4 E5 E6 Hw Hs Hg Hf Hb. unfold run2. rewrite E3, E1, E2, E4, E5, E6.
  rewrite (mw2_loop_ok LA w method m L g (HA g) HL Hdl Hrl (Htr g) odd (translate_mode m) J t b h v rest []); auto. rewrite app_nil_r. reflexivity.
Qed.
Lemma sep_rec g J t b h v : wf t -> shp t = [b; h; v] -> ttag t = g -> fitsN L J [h; v] -> ((0 < J)%nat -> (0 < b)%nat) ->
  mr2_loop true (rev (bmatsN (fun s => map sp_t (lm g s)) J [h; v])) (Nat.iter J (bandc (tprod (An g)) m bLL) t)
    (map (fun j => detsK (tprod (An g)) m ks2 (Nat.iter j (bandc (tprod (An g)) m bLL) t)) (rev (seq 0 J))) = Ok (if Nat.eqb J 0 then t else E m t).
Proof.
  intros Hw Hs Hg Hf Hb. rewrite <- bmatsN_t. pose proof (mr2_loop_ok LA w method m L g (HA g) HL Hdl Hrl (Htr g) J t b h v [] [] Hw Hs Hg Hb Hf) as H. rewrite !app_nil_r in H.
  change (dets2 LA w method m g) with (detsK (tprod (An g)) m ks2) in H. rewrite H. destruct J; reflexivity.
Qed.
(** a fresh object is called: the outcome *)
Lemma sep_call level axes x lev : wf x -> is_dtype_supported (tdtype x) = true -> List.length axes = 2%nat -> axes_ok (rank x) axes ->
  let nax := map (norm_axis (rank x)) axes in let s := gather nax 0%nat (shp x) in
  wn_lev w level s = Ok lev -> let J := bwn_levels (Z.to_nat lev) L s in okb (prodl (fsz nax (shp x))) J ->
  exists o', mw2_call LA (mkMWN w level axes method odd true None [] [] false []) x = (o', Ok (bwn2_coeffs (tprod (An (ttag x))) m nax ks2 J x)).
Proof.
  intros Hw Hdt Hl Hax nax s Hlev J Hb.
  destruct (mw2_call_ok LA w method L (ttag x) true (lm (ttag x)) anyd anyd_map any2 (Hlm (ttag x)) Hdl HL (tprod (An (ttag x))) m ks2 okb eq_refl odd (sep_run (ttag x))
    (mkMWN w level axes method odd true None [] [] false []) x axes lev) as (o' & E & _); auto; [repeat split|left; reflexivity|eauto].
Qed.
(** an empty batch is refused if there is any level to compute *)
Lemma sep_empty level axes x lev : wf x -> is_dtype_supported (tdtype x) = true -> List.length axes = 2%nat -> axes_ok (rank x) axes ->
  let nax := map (norm_axis (rank x)) axes in let s := gather nax 0%nat (shp x) in
  wn_lev w level s = Ok lev -> (0 < bwn_levels (Z.to_nat lev) L s)%nat -> prodl (fsz nax (shp x)) = 0%nat ->
  exists o' e, mw2_call LA (mkMWN w level axes method odd true None [] [] false []) x = (o', Raise e).
Proof.
  intros Hw Hdt Hl Hax nax s Hlev HJ Hb.
  set (o := mkMWN w level axes method odd true None [] [] false []).
  unfold mw2_call. change (wn_axes o) with axes. rewrite (preprocess_tensor_ok x 2 (AxSeq axes) axes false Hw Hdt); auto; [|cbn; rewrite Hl; reflexivity]. fold nax. cbn match.
  change (tl (shp (pre_t nax x))) with s. change (ttag (pre_t nax x)) with (ttag x).
  rewrite (prepare_n_eq LA w method L (ttag x) true anyd anyd_map (lm (ttag x)) (Hlm (ttag x)) Hdl o odd axes s lev); [|repeat split|exact I|left; reflexivity|exact Hlev]. cbn match.
  unfold readyN. cbv zeta. cbn [wn_sep wn_wav wn_odd wn_mats wn_pads wn_sizes]. destruct (bwn_levels (Z.to_nat lev) L s) as [|J] eqn:EJ; [lia|].
  assert (Hsh : exists h v, s = [h; v]). { assert (Hls2 : List.length s = 2%nat) by (unfold s, nax; rewrite gather_length, map_length; exact Hl). destruct s as [|h [|v [|? ?]]]; try discriminate; eauto. }
  destruct Hsh as (h & v & Hsv).
  assert (Hf : fitsN L (S J) s) by (rewrite <- EJ; apply fits_levels_n). rewrite Hsv in Hf |- *. destruct Hf as [Hn _]. apply Forall2_inv in Hn as [H1 H2].
  pose proof (good_axes_ok _ _ Hax) as Hga. fold nax in Hga.
  assert (Hsx : shp (pre_t nax x) = [0%nat; h; v]) by (change (shp (pre_t nax x)) with (prodl (fsz nax (shp x)) :: s); rewrite Hb, Hsv; reflexivity).
  cbn [bmatsN bpadsN bsizesN app mw2_loop]. unfold mw2_step, lmS. cbn [map]. change [isodd h; isodd v] with (map isodd [h; v]).
  rewrite (add_padding_ok LA w method m L (ttag x) HL Hdl Hrl (Htr _) odd (pre_t nax x) 0 h v (translate_mode m) (pre_t_wf nax x Hga) Hsx) by lia. cbn [rbind].
  pose proof (shp_E m (pre_t nax x) 0 _ Hsx) as HE. cbn [map] in HE.
  destruct (batch_mm_empty (Am LA w method (ttag x) (even_up v)) (transpose (E m (pre_t nax x)) 1 2) (even_up v) (even_up h)) as [e He]; [apply (transpose12 _ _ _ _ HE)|].
  rewrite He. cbn [rbind]. eauto.
Qed.

(** the coefficients: band by band the (tensor product of the) orthogonal boundary matrices applied along the two axes.
    The second member of a detail tuple is the one with details along the first axis. *)
Lemma coefficients2 level axes o x o' c : wf x -> new_mwavedecn 2 w level (AxSeq axes) method odd true = Ok o -> mw2_call LA o x = (o', Ok c) ->
  let nax := map (norm_axis (rank x)) axes in let s := gather nax 0%nat (shp x) in
  exists lev A, match level with Some l => lev = l /\ (0 < l)%Z | None => mat_level_n (get_len w) s = Ok lev end /\
    (forall k, (L <= k)%nat -> (k mod 2 = 0)%nat -> construct_boundary_a LA (ttag x) w k method = Ok (A k) /\ orthogonal k (mget (A k))) /\
    c = bwn2_coeffs (tprod (fun k => mget (A k))) m nax [bLH; bHL; bHH] (bwn_levels (Z.to_nat lev) L s) x.
Proof.
  intros Hw Ho Hc nax s. apply new_mwn_inv in Ho as [Hl ->].
  destruct (mw2_call_inv (fresh level axes) o' axes x c Hw eq_refl Hl Hc) as (Hdt & Hax & lev & Hlev). cbn [wn_wav wn_level] in Hlev.
  assert (Hb : okb (prodl (fsz nax (shp x))) (bwn_levels (Z.to_nat lev) L s)).
  { intros HJ. destruct (Nat.eq_dec (prodl (fsz nax (shp x))) 0) as [E0|E0]; [|lia]. destruct (sep_empty level axes x lev Hw Hdt Hl Hax Hlev HJ E0) as (o2 & e & E). congruence. }
  destruct (sep_call level axes x lev Hw Hdt Hl Hax Hlev Hb) as [o2 E]. fold nax s in E. rewrite E in Hc. apply (f_equal snd) in Hc. cbn [snd] in Hc. apply ok_injM in Hc. subst c.
  exists lev, (Am LA w method (ttag x)). split.
  - unfold wn_lev in Hlev. destruct level as [l|]; [|exact Hlev]. destruct (Z.leb_spec l 0); [discriminate|]. injection Hlev as <-. auto.
  - split; [|reflexivity]. intros k Hk Hk2. destruct (Am_ok LA w method L (ttag x) (HA _) k Hk Hk2) as (H1 & _ & _ & _ & _ & H6). split; assumption.
Qed.
Theorem C43_coefficients level axes o x o' c : wf x -> new_mwavedecn 2 w level (AxSeq axes) method odd true = Ok o -> mw2_call LA o x = (o', Ok c) ->
  let nax := map (norm_axis (rank x)) axes in let s := gather nax 0%nat (shp x) in
  exists lev A, match level with Some l => lev = l /\ (0 < l)%Z | None => default_depth L s (Z.to_nat lev) end /\
    (forall k, (L <= k)%nat -> (k mod 2 = 0)%nat -> construct_boundary_a LA (ttag x) w k method = Ok (A k) /\ orthogonal k (mget (A k))) /\
    c = bwn2_coeffs (tprod (fun k => mget (A k))) m nax [bLH; bHL; bHH] (bwn_levels (Z.to_nat lev) L s) x.
Proof.
  intros Hw Ho Hc nax s. destruct (coefficients2 level axes o x o' c Hw Ho Hc) as (lev & A & Hlev & H). exists lev, A. split; [|exact H].
  destruct level as [l|]; [exact Hlev|]. apply mat_level_n_depth; [exact HL|]. rewrite <- Hdl. exact Hlev.
Qed.
(** which inputs a fresh object accepts *)
Lemma accepts2 level axes x : wf x -> List.length axes = 2%nat ->
  let nax := map (norm_axis (rank x)) axes in let s := gather nax 0%nat (shp x) in
  (exists o o' c, new_mwavedecn 2 w level (AxSeq axes) method odd true = Ok o /\ mw2_call LA o x = (o', Ok c)) <->
  (is_dtype_supported (tdtype x) = true /\ axes_ok (rank x) axes /\
   exists lev, match level with Some l => lev = l /\ (0 < l)%Z | None => mat_level_n (get_len w) s = Ok lev end /\ (bwn_levels (Z.to_nat lev) L s = 0%nat \/ batch_nonempty nax x)).
Proof.
  intros Hw Hl nax s. split.
  - intros (o & o' & c & Ho & Hc). apply new_mwn_inv in Ho as [_ ->].
    destruct (mw2_call_inv (fresh level axes) o' axes x c Hw eq_refl Hl Hc) as (Hdt & Hax & lev & Hlev). cbn [wn_wav wn_level] in Hlev.
    split; [exact Hdt|]. split; [exact Hax|]. exists lev. split.
    + unfold wn_lev in Hlev. destruct level as [l|]; [|exact Hlev]. destruct (Z.leb_spec l 0); [discriminate|]. injection Hlev as <-. auto.
    + destruct (Nat.eq_dec (bwn_levels (Z.to_nat lev) L s) 0) as [E0|E0]; [auto|]. right. apply fsz_pos. destruct (Nat.eq_dec (prodl (fsz nax (shp x))) 0) as [E1|E1]; [|lia].
      destruct (sep_empty level axes x lev Hw Hdt Hl Hax Hlev ltac:(fold nax s; lia) E1) as (o2 & e & E). congruence.
  - intros (Hdt & Hax & lev & Hlev & Hb). exists (mkMWN w level axes method odd true None [] [] false []).
    assert (Hlev' : wn_lev w level s = Ok lev). { unfold wn_lev. destruct level as [l|]; [|exact Hlev]. destruct Hlev as [-> Hp]. destruct (Z.leb_spec l 0); [lia|reflexivity]. }
    destruct (sep_call level axes x lev Hw Hdt Hl Hax Hlev') as [o2 E].
    { intros HJ. destruct Hb as [Hb|Hb]; [fold nax s in HJ; lia|]. apply fsz_pos, Hb. }
    exists o2. eexists. split; [|exact E].
    pose proof (la_ok_sup method HLA) as Hsup.
    unfold new_mwavedecn, ensure_axes. rewrite Hl. cbn [Nat.eqb]. rewrite (axes_ok_check _ _ Hax). cbn [rbind]. rewrite Hsup. cbn [negb]. rewrite Hrl, Hdl, Nat.eqb_refl. reflexivity.
Qed.
Theorem C43_accepts level axes x : wf x -> List.length axes = 2%nat ->
  let nax := map (norm_axis (rank x)) axes in let s := gather nax 0%nat (shp x) in
  (exists o o' c, new_mwavedecn 2 w level (AxSeq axes) method odd true = Ok o /\ mw2_call LA o x = (o', Ok c)) <->
  (is_dtype_supported (tdtype x) = true /\ axes_ok (rank x) axes /\
   exists lev, match level with Some l => lev = l /\ (0 < l)%Z | None => default_depth L s (Z.to_nat lev) end /\ (bwn_levels (Z.to_nat lev) L s = 0%nat \/ batch_nonempty nax x)).
Proof.
  intros Hw Hl nax s. rewrite (accepts2 level axes x Hw Hl). fold nax s. split.
  - intros (H1 & H2 & lev & Hlev & H3). split; [exact H1|]. split; [exact H2|]. exists lev. split; [|exact H3].
    destruct level as [l|]; [exact Hlev|]. apply mat_level_n_depth; [exact HL|]. rewrite <- Hdl. exact Hlev.
  - intros (H1 & H2 & lev & Hlev & H3). split; [exact H1|]. split; [exact H2|]. destruct level as [l|]; [eauto|].
    destruct (mat_level_n_ex (get_len w) s) as [lev' E]; [|apply Hlev|].
    { intros E0. apply (f_equal (@List.length nat)) in E0. unfold s, nax in E0. rewrite gather_length, map_length, Hl in E0. discriminate. }
    exists lev'. split; [exact E|]. assert (E2 : Z.to_nat lev' = Z.to_nat lev).
    { apply (default_depth_unique L s); [|exact Hlev]. apply mat_level_n_depth; [exact HL|]. rewrite <- Hdl. exact E. }
    rewrite E2. exact H3.
Qed.
(** C43: MatrixWaverec2(MatrixWavedec2(x)) is x, extended by one sample along the axes with an odd size if there is at
    least one level *)
Theorem C43_reconstruction level axes o x o' c r : wf x -> new_mwavedecn 2 w level (AxSeq axes) method odd true = Ok o -> mw2_call LA o x = (o', Ok c) ->
  new_mwaverecn 2 w (AxSeq axes) method true = Ok r ->
  let nax := map (norm_axis (rank x)) axes in
  (List.length (pc_items c) = 1%nat -> batch_nonempty nax x) ->
  snd (mr2_call LA r (pc_items c)) = Ok (if Nat.eqb (List.length (pc_items c)) 1 then x else ext_even m nax x).
Proof.
  intros Hw Ho Hc Hr nax Hbn. apply new_mwn_inv in Ho as [Hl ->]. apply new_mrn_inv in Hr as [_ ->].
  destruct (mw2_call_inv (fresh level axes) o' axes x c Hw eq_refl Hl Hc) as (Hdt & Hax & lev & Hlev). cbn [wn_wav wn_level] in Hlev. set (s := gather nax 0%nat (shp x)) in *.
  assert (Hb : okb (prodl (fsz nax (shp x))) (bwn_levels (Z.to_nat lev) L s)).
  { intros HJ. destruct (Nat.eq_dec (prodl (fsz nax (shp x))) 0) as [E0|E0]; [|lia]. destruct (sep_empty level axes x lev Hw Hdt Hl Hax Hlev HJ E0) as (o2 & e & E). congruence. }
  destruct (sep_call level axes x lev Hw Hdt Hl Hax Hlev Hb) as [o2 E]. fold nax s in E. rewrite E in Hc. apply (f_equal snd) in Hc. cbn [snd] in Hc. apply ok_injM in Hc. subst c.
  set (J := bwn_levels (Z.to_nat lev) L s) in *.
  assert (Hlen : List.length (pc_items (bwn2_coeffs (tprod (An (ttag x))) m nax ks2 J x)) = S J) by (unfold bwn2_coeffs; cbn [pc_items List.length]; rewrite map_length, rev_length, seq_length; reflexivity).
  rewrite Hlen in Hbn |- *.
  destruct (mr2_call_ok LA w method L (ttag x) true (lm (ttag x)) (fun s => map sp_t (lm (ttag x) s)) anyd anyd_map any2 (Hlm (ttag x)) (Hls (ttag x)) Hdl Hrl HL (tprod (An (ttag x))) m ks2 okb eq_refl odd (sep_run (ttag x)) (sep_rec (ttag x)) (mkMRN w axes method true [] None None false) x axes J) as (r' & E2 & _); auto.
  - repeat split.
  - apply fits_levels_n.
  - left. reflexivity.
  - fold nax. destruct (Nat.eq_dec J 0) as [E0|E0]; [apply fsz_pos, Hbn; lia|apply Hb; lia].
  - fold nax in E2. rewrite E2. cbn [snd]. destruct J; reflexivity.
Qed.
Theorem C43_perfect_reconstruction level axes o x o' c r : wf x -> new_mwavedecn 2 w level (AxSeq axes) method odd true = Ok o -> mw2_call LA o x = (o', Ok c) ->
  new_mwaverecn 2 w (AxSeq axes) method true = Ok r ->
  let nax := map (norm_axis (rank x)) axes in
  (List.length (pc_items c) = 1%nat -> batch_nonempty nax x) ->
  exists y, snd (mr2_call LA r (pc_items c)) = Ok y /\ agrees_on x y /\
    forall d, nth d (shp y) 0%nat = nth d (shp x) 0%nat \/ (In d nax /\ Nat.odd (nth d (shp x) 0%nat) = true /\ nth d (shp y) 0%nat = S (nth d (shp x) 0%nat)).
Proof.
  intros Hw Ho Hc Hr nax Hbn. eexists. split; [apply (C43_reconstruction level axes o x o' c r); assumption|]. fold nax. change (rec_of x (if Nat.eqb (List.length (pc_items c)) 1 then x else ext_even m nax x) nax).
  apply new_mwn_inv in Ho as [Hl ->]. destruct (mw2_call_inv (fresh level axes) o' axes x c Hw eq_refl Hl Hc) as (_ & Hax & _).
  destruct (Nat.eqb _ _); [apply rec_of_refl|apply rec_of_ext; [exact Hw|apply good_axes_ok, Hax]].
Qed.
(** with an empty batch there are two further outcomes: any computed level makes the analysis raise, and the
    reconstruction of a bare approximation raises *)
Theorem C43_empty_batch level axes o x : wf x -> new_mwavedecn 2 w level (AxSeq axes) method odd true = Ok o ->
  ~ batch_nonempty (map (norm_axis (rank x)) axes) x ->
  forall o' c, mw2_call LA o x = (o', Ok c) -> List.length (pc_items c) = 1%nat.
Proof.
  intros Hw Ho Hb o' c Hc. pose proof Ho as Ho'. apply new_mwn_inv in Ho as [Hl ->].
  destruct (proj1 (accepts2 level axes x Hw Hl)) as (_ & _ & lev & Hlev & [H0|H0]); [eauto| |contradiction].
  destruct (coefficients2 level axes _ x o' c Hw Ho' Hc) as (lev' & A & Hlev' & _ & ->).
  assert (lev' = lev) by (destruct level; [destruct Hlev, Hlev'; congruence|congruence]). subst lev'.
  unfold bwn2_coeffs. cbn [pc_items List.length]. rewrite map_length, rev_length, seq_length, H0. reflexivity.
Qed.

(** ** three dimensions *)
Notation A3 g := (Bm LA w method g).
Lemma call3 level axes x lev : wf x -> is_dtype_supported (tdtype x) = true -> List.length axes = 3%nat -> axes_ok (rank x) axes ->
  let nax := map (norm_axis (rank x)) axes in let s := gather nax 0%nat (shp x) in
  wn_lev w level s = Ok lev -> let J := bwn_levels (Z.to_nat lev) L s in
  exists o', mw3_call LA (mkMWN w level axes method odd true None [] [] false []) x = (o', Ok (bwn3_coeffs (tprod (An (ttag x))) m nax bands3 J x)).
Proof.
  intros Hw Hdt Hl Hax nax s Hlev J.
  destruct (mw3_call_ok LA w method m L (ttag x) (HA (ttag x)) HL Hdl Hrl (Htr _) (mkMWN w level axes method odd true None [] [] false []) x axes odd lev) as (o' & E & _); auto; [repeat split|apply translate_mode|left; reflexivity|eauto].
Qed.
Lemma coefficients3 level axes o x o' c : wf x -> new_mwavedecn 3 w level (AxSeq axes) method odd true = Ok o -> mw3_call LA o x = (o', Ok c) ->
  let nax := map (norm_axis (rank x)) axes in let s := gather nax 0%nat (shp x) in
  exists lev A, match level with Some l => lev = l /\ (0 < l)%Z | None => mat_level_n (get_len w) s = Ok lev end /\
    (forall k, (L <= k)%nat -> (k mod 2 = 0)%nat -> construct_boundary_a LA (ttag x) w k method = Ok (A k) /\ orthogonal k (mget (A k))) /\
    c = bwn3_coeffs (tprod (fun k => mget (A k))) m nax bands3 (bwn_levels (Z.to_nat lev) L s) x.
Proof.
  intros Hw Ho Hc nax s. apply new_mwn_inv in Ho as [Hl ->].
  destruct (mw3_call_inv (fresh level axes) o' axes x c Hw eq_refl Hl Hc) as (Hdt & Hax & lev & Hlev). cbn [wn_wav wn_level] in Hlev.
  destruct (call3 level axes x lev Hw Hdt Hl Hax Hlev) as [o2 E]. fold nax s in E. rewrite E in Hc. apply (f_equal snd) in Hc. cbn [snd] in Hc. apply ok_injM in Hc. subst c.
  exists lev, (Am LA w method (ttag x)). split.
  - unfold wn_lev in Hlev. destruct level as [l|]; [|exact Hlev]. destruct (Z.leb_spec l 0); [discriminate|]. injection Hlev as <-. auto.
  - split; [|reflexivity]. intros k Hk Hk2. destruct (Am_ok LA w method L (ttag x) (HA _) k Hk Hk2) as (H1 & _ & _ & _ & _ & H6). split; assumption.
Qed.
Theorem C45_coefficients level axes o x o' c : wf x -> new_mwavedecn 3 w level (AxSeq axes) method odd true = Ok o -> mw3_call LA o x = (o', Ok c) ->
  let nax := map (norm_axis (rank x)) axes in let s := gather nax 0%nat (shp x) in
  exists lev A, match level with Some l => lev = l /\ (0 < l)%Z | None => default_depth L s (Z.to_nat lev) end /\
    (forall k, (L <= k)%nat -> (k mod 2 = 0)%nat -> construct_boundary_a LA (ttag x) w k method = Ok (A k) /\ orthogonal k (mget (A k))) /\
    c = bwn3_coeffs (tprod (fun k => mget (A k))) m nax bands3 (bwn_levels (Z.to_nat lev) L s) x.
Proof.
  intros Hw Ho Hc nax s. destruct (coefficients3 level axes o x o' c Hw Ho Hc) as (lev & A & Hlev & H). exists lev, A. split; [|exact H].
  destruct level as [l|]; [exact Hlev|]. apply mat_level_n_depth; [exact HL|]. rewrite <- Hdl. exact Hlev.
Qed.
Lemma accepts3 level axes x : wf x -> List.length axes = 3%nat ->
  let nax := map (norm_axis (rank x)) axes in let s := gather nax 0%nat (shp x) in
  (exists o o' c, new_mwavedecn 3 w level (AxSeq axes) method odd true = Ok o /\ mw3_call LA o x = (o', Ok c)) <->
  (is_dtype_supported (tdtype x) = true /\ axes_ok (rank x) axes /\
   match level with Some l => (0 < l)%Z | None => exists lev, mat_level_n (get_len w) s = Ok lev end).
Proof.
  intros Hw Hl nax s. split.
  - intros (o & o' & c & Ho & Hc). apply new_mwn_inv in Ho as [_ ->].
    destruct (mw3_call_inv (fresh level axes) o' axes x c Hw eq_refl Hl Hc) as (Hdt & Hax & lev & Hlev). cbn [wn_wav wn_level] in Hlev.
    split; [exact Hdt|]. split; [exact Hax|]. unfold wn_lev in Hlev. destruct level as [l|]; [|eauto]. destruct (Z.leb_spec l 0); [discriminate|assumption].
  - intros (Hdt & Hax & Hlev). exists (mkMWN w level axes method odd true None [] [] false []).
    assert (Hlev' : exists lev, wn_lev w level s = Ok lev). { unfold wn_lev. destruct level as [l|]; [|exact Hlev]. destruct (Z.leb_spec l 0); [lia|eauto]. }
    destruct Hlev' as [lev Hlev']. destruct (call3 level axes x lev Hw Hdt Hl Hax Hlev') as [o2 E].
    exists o2. eexists. split; [|exact E].
    pose proof (la_ok_sup method HLA) as Hsup.
    unfold new_mwavedecn, ensure_axes. rewrite Hl. cbn [Nat.eqb]. rewrite (axes_ok_check _ _ Hax). cbn [rbind]. rewrite Hsup. cbn [negb]. rewrite Hrl, Hdl, Nat.eqb_refl. reflexivity.
Qed.
Theorem C45_accepts level axes x : wf x -> List.length axes = 3%nat ->
  let nax := map (norm_axis (rank x)) axes in let s := gather nax 0%nat (shp x) in
  (exists o o' c, new_mwavedecn 3 w level (AxSeq axes) method odd true = Ok o /\ mw3_call LA o x = (o', Ok c)) <->
  (is_dtype_supported (tdtype x) = true /\ axes_ok (rank x) axes /\
   match level with Some l => (0 < l)%Z | None => Forall (fun n => (0 < n)%nat) s end).
Proof.
  intros Hw Hl nax s. rewrite (accepts3 level axes x Hw Hl). fold nax s. destruct level as [l|]; [reflexivity|]. split; intros (H1 & H2 & H3); (split; [exact H1|]); (split; [exact H2|]).
  - destruct H3 as [lev H3]. refine (proj1 (mat_level_n_depth L s lev HL _)). rewrite <- Hdl. exact H3.
  - apply mat_level_n_ex; [|exact H3]. intros E0. apply (f_equal (@List.length nat)) in E0. unfold s, nax in E0. rewrite gather_length, map_length, Hl in E0. discriminate.
Qed.
(** C45: MatrixWaverec3(MatrixWavedec3(x)) for at least one level *)
Theorem C45_reconstruction level axes o x o' c r : wf x -> new_mwavedecn 3 w level (AxSeq axes) method odd true = Ok o -> mw3_call LA o x = (o', Ok c) ->
  new_mwaverecn 3 w (AxSeq axes) method true = Ok r -> (1 < List.length (pc_items c))%nat ->
  snd (fst (mr3_call LA r (pc_items c))) = Ok (ext_even m (map (norm_axis (rank x)) axes) x).
Proof.
  intros Hw Ho Hc Hr Hlen. apply new_mwn_inv in Ho as [Hl ->]. apply new_mrn_inv in Hr as [_ ->]. set (nax := map (norm_axis (rank x)) axes).
  destruct (mw3_call_inv (fresh level axes) o' axes x c Hw eq_refl Hl Hc) as (Hdt & Hax & lev & Hlev). cbn [wn_wav wn_level] in Hlev. set (s := gather nax 0%nat (shp x)) in *. fold nax in Hlev. fold s in Hlev.
  destruct (call3 level axes x lev Hw Hdt Hl Hax Hlev) as [o2 E]. fold nax s in E. rewrite E in Hc. apply (f_equal snd) in Hc. cbn [snd] in Hc. apply ok_injM in Hc. subst c.
  set (J := bwn_levels (Z.to_nat lev) L s) in *. unfold bwn3_coeffs in Hlen. cbn [pc_items List.length] in Hlen. rewrite map_length, rev_length, seq_length in Hlen.
  destruct (mr3_call_ok LA w method m L (ttag x) (HA _) HL Hdl Hrl (Htr _) (mkMRN w axes method true [] None None false) x axes J) as (r' & E2 & _); auto.
  - repeat split.
  - apply fits_levels_n.
  - left. reflexivity.
  - lia.
  - cbv zeta in E2. fold nax in E2. rewrite E2. reflexivity.
Qed.
Theorem C45_perfect_reconstruction level axes o x o' c r : wf x -> new_mwavedecn 3 w level (AxSeq axes) method odd true = Ok o -> mw3_call LA o x = (o', Ok c) ->
  new_mwaverecn 3 w (AxSeq axes) method true = Ok r -> (1 < List.length (pc_items c))%nat ->
  let nax := map (norm_axis (rank x)) axes in
  exists y, snd (fst (mr3_call LA r (pc_items c))) = Ok y /\ agrees_on x y /\
    forall d, nth d (shp y) 0%nat = nth d (shp x) 0%nat \/ (In d nax /\ Nat.odd (nth d (shp x) 0%nat) = true /\ nth d (shp y) 0%nat = S (nth d (shp x) 0%nat)).
Proof.
  intros Hw Ho Hc Hr Hlen nax. eexists. split; [apply (C45_reconstruction level axes o x o' c r); assumption|]. fold nax. change (rec_of x (ext_even m nax x) nax).
  apply new_mwn_inv in Ho as [Hl ->]. destruct (mw3_call_inv (fresh level axes) o' axes x c Hw eq_refl Hl Hc) as (_ & Hax & _).
  apply rec_of_ext; [exact Hw|apply good_axes_ok, Hax].
Qed.
End Bank.
End PN.
