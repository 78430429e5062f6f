(** C52 for the stationary, the separable and the matrix transforms: dtype and device ([ttag]) of what is returned.

    The objects are arbitrary: whatever a history of calls (possibly on tensors of another dtype) has left in them,
    a call that returns at all returns tensors of the dtype and device of its argument. *)
From Coq Require Import List Arith ZArith Lia Bool String Ascii.
From Verif Require Import Base Sums Tensor TensorFacts Util Perm Plumb Accept Spec Conv1 Conv2 Conv3 Tags Sep Swt Sparse Mat1 MatN Examples.
Import ListNotations.

Section TagMat.
Context {K : CRing}.
Variable LA : linalg K.
Implicit Types t u x y : tensor K.
Implicit Types w : wavelet K.

Ltac rb H := let x := fresh "x" in let H1 := fresh "H" in apply rbind_ok in H as (x & H1 & H).
Ltac okinj H := injection H as <-.

(** every tensor of checked coefficients has the tag of the first one *)
Lemma tree_map_in_l (c c' : pycoeffs K) f : coeff_tree_map c f = Ok c' ->
  forall t, In t (pc_tensors c) -> (forall v, In v (pc_items c) -> match v with PTup l => List.length l = 3 | _ => True end) -> exists t', f t = Ok t'.
Proof.
  unfold coeff_tree_map, pc_tensors. destruct (pc_items c) as [|[t0| | |] rest]; try discriminate. intros H t Hin Hk. rb H. rb H.
  cbn [flat_map pv_tensors app] in Hin. destruct Hin as [<-|Hin]; [eauto|]. apply in_flat_map in Hin as (v & Hv & Hin). clear H.
  assert (Hkv := Hk v (or_intror Hv)). clear Hk.
  assert (G : exists v', map_element f v = Ok v').
  { apply rmap_F2 in H1. clear -H1 Hv. induction H1 as [|a b l l' E _ IH]; [destruct Hv|]. destruct Hv as [<-|Hv]; eauto. }
  destruct G as (v' & G). destruct v as [t1|l|d|]; cbn [map_element pv_tensors] in *.
  - destruct Hin as [<-|[]]. rb G. eauto.
  - destruct l as [|a [|b [|d [|]]]]; cbn in Hkv; try discriminate Hkv. rb G. rb G. rb G. destruct Hin as [<-|[<-|[<-|[]]]]; eauto.
  - rb G. apply in_map_iff in Hin as (kv & <- & Hkv'). unfold map_dict in H. apply rmap_F2 in H. clear -H Hkv'.
    induction H as [|a b l l' E _ IH]; [destruct Hkv'|]. destruct Hkv' as [<-|Hv]; [rb E; eauto|auto].
  - destruct Hin.
Qed.

(** ** primitives *)
Lemma tag_transpose t a b : ttag (transpose t a b) = ttag t. Proof. reflexivity. Qed.
Lemma tag_tT t : ttag (tT t) = ttag t. Proof. reflexivity. Qed.
Lemma tag_unsqueeze t d : ttag (unsqueeze t d) = ttag t. Proof. reflexivity. Qed.
Ltac simt := repeat (rewrite tag_transpose in * || rewrite tag_tT in * || rewrite tag_unsqueeze in * || rewrite tag_squeeze in *).
Lemma tag_sp_dense m t u : sp_dense_mm m t = Ok u -> ttag u = ttag t.
Proof. unfold sp_dense_mm. destruct (shp t) as [|n [|p []]]; try discriminate. destruct (_ && _)%bool; [|discriminate]. intros H. okinj H. reflexivity. Qed.
Lemma tag_reshape_last t l u : reshape_last t l = Ok u -> ttag u = ttag t.
Proof. unfold reshape_last. destruct (Nat.eqb _ 0); [discriminate|]. apply tag_reshape. Qed.
Lemma tag_batch_mm m t u : batch_mm m t = Ok u -> ttag u = ttag t.
Proof.
  unfold batch_mm. destruct (shp t) as [|b [|n [|k []]]]; try discriminate. destruct (negb _); [discriminate|]. intros H. rb H. rb H. rb H. okinj H.
  apply tag_reshape_last in H0, H2. apply tag_sp_dense in H1. simt. congruence.
Qed.
Lemma tag_batch_dim_mm m t d u : batch_dim_mm m t d = Ok u -> ttag u = ttag t.
Proof.
  unfold batch_dim_mm. intros H. rb H. destruct (Nat.eqb _ 0); [discriminate|]. rb H. rb H. okinj H.
  apply tag_reshape in H0, H2. apply tag_sp_dense in H1. simt. congruence.
Qed.
Lemma tag_fwt_pad t w mo p u : fwt_pad t w mo p = Ok u -> ttag u = ttag t.
Proof. unfold fwt_pad. intros H. rb H. apply tag_dispatch in H. exact H. Qed.
Lemma tag_fwt_pad_n n t w mo p u : fwt_pad_n n t w mo p = Ok u -> ttag u = ttag t.
Proof. unfold fwt_pad_n. intros H. rb H. apply tag_dispatch in H. exact H. Qed.
Lemma tag_split_half t p : split_half t = Ok p -> ttag (fst p) = ttag t /\ ttag (snd p) = ttag t.
Proof. unfold split_half. destruct (Nat.eqb _ 0); [discriminate|]. destruct (negb _); [discriminate|]. intros H. okinj H. split; reflexivity. Qed.
Lemma tag_split2 t d h p : split2 t d h = Ok p -> ttag (fst p) = ttag t /\ ttag (snd p) = ttag t.
Proof. unfold split2. destruct (Nat.eqb _ 0); [discriminate|]. destruct (_ && _)%bool; [|discriminate]. intros H. okinj H. split; reflexivity. Qed.
Lemma tag_to_cols t u : to_cols t = Ok u -> ttag u = ttag t.
Proof. unfold to_cols. intros H. rb H. okinj H. apply tag_reshape_last in H0. exact H0. Qed.
Lemma tag_of_cols t b h wd u : of_cols t b h wd = Ok u -> ttag u = ttag t.
Proof. unfold of_cols. intros H. rb H. okinj H. apply tag_reshape in H0. exact H0. Qed.
Lemma tag_split4 t c l : split4 t c = Ok l -> Forall (fun u => ttag u = ttag t) l /\ l <> [].
Proof.
  unfold split4. destruct (Nat.eqb _ 0); [discriminate|]. destruct (Nat.eqb _ _); [|discriminate]. intros H. okinj H. split; [|discriminate].
  repeat constructor.
Qed.
Lemma tag_add_padding w odd t p u : add_padding w odd t p = Ok u -> ttag u = ttag t.
Proof. unfold add_padding. destruct (existsb _ p); [apply tag_fwt_pad_n|]. intros H. okinj H. reflexivity. Qed.
Lemma tag_slice_to t ds u : slice_to t ds = Ok u -> ttag u = ttag t.
Proof. unfold slice_to. destruct (Nat.ltb _ _); [discriminate|]. intros H. okinj H. reflexivity. Qed.
Lemma tag_transpose_last t c u : transpose_last t c = Ok u -> ttag u = ttag t.
Proof. unfold transpose_last. destruct (_ && _)%bool; [|discriminate]. intros H. okinj H. reflexivity. Qed.
Lemma tag_reshape_flat t u : reshape_flat t = Ok u -> ttag u = ttag t.
Proof. unfold reshape_flat. destruct (Nat.eqb _ 0); [discriminate|]. apply tag_reshape. Qed.
Lemma tag_circ_loop f : forall n t a b u, circ_loop f n t a b = Ok u -> ttag u = ttag t.
Proof.
  induction f as [|f IH]; intros n t a b u; cbn [circ_loop]; destruct (_ || _)%bool; try discriminate; intros H; try (okinj H; reflexivity).
  rb H. apply IH in H. apply tag_fpad in H0. congruence.
Qed.
Lemma tag_circular_pad t a b u : circular_pad t a b = Ok u -> ttag u = ttag t.
Proof. unfold circular_pad. destruct (negb _); [apply tag_fpad|apply tag_circ_loop]. Qed.

(** ** iswt *)
Lemma iswt_loop_tag half filt L his : forall lo u, iswt_loop half filt L lo his = Ok u -> ttag u = ttag lo.
Proof.
  induction his as [|hi his IH]; intros lo u H; cbn [iswt_loop] in H; [okinj H; reflexivity|]. rb H. rb H. rb H. apply IH in H. rewrite H. cbn [mean2 ttag tmake].
  apply tag_stack_hd in H0. apply tag_circular_pad in H1. apply tag_convT in H2. congruence.
Qed.
Theorem C52_iswt half w h t (r : list (pyval K)) y : iswt half (PT t :: r) w h = Ok y -> ttag y = ttag t.
Proof.
  intros H. unfold iswt in H. rb H. destruct x as [c ds]. rb H. cbn [get_filter_tensors] in H. rb H. rb H.
  destruct x1 as [|lo his]; [discriminate|]. rb H. apply postprocess_tensor_tag in H. apply iswt_loop_tag in H4. rewrite H, H4.
  apply rmap_F2 in H3. inversion H3 as [|v ? vs ? Hv _ E1 E2]; subst. destruct v as [lo'| | |]; cbn in Hv; try discriminate. okinj Hv.
  eapply first_tag; [exact H0| reflexivity|symmetry; exact E1].
Qed.

(** ** fswavedec2, fswavedec3, fswaverec2, fswaverec3 *)
Definition dtag (g : tag) (d : sdict (K := K)) : Prop := Forall (fun kv => ttag (snd kv) = g) d.
Lemma dtag_set g d k v : dtag g d -> ttag v = g -> dtag g (dict_set d k v).
Proof.
  intros Hd Hv. induction Hd as [|[k' v'] d E Hd IH]; cbn [dict_set]; [repeat constructor; exact Hv|]. destruct (String.eqb k' k); constructor; auto.
Qed.
Lemma dtag_del g d k : dtag g d -> dtag g (dict_del d k).
Proof. intros Hd. induction Hd as [|[k' v'] d E Hd IH]; cbn [dict_del]; [constructor|]. destruct (String.eqb k' k); [exact Hd|constructor; auto]. Qed.
Lemma dtag_get g d k v : dtag g d -> Sep.dict_get d k = Some v -> ttag v = g.
Proof.
  intros Hd. induction Hd as [|[k' v'] d E Hd IH]; cbn [Sep.dict_get]; [discriminate|]. destruct (String.eqb k' k); [|exact IH]. intros H. injection H as <-. exact E.
Qed.
Lemma vtag_dict g d : dtag g d <-> vtag g (PDict d).
Proof.
  unfold dtag, vtag. cbn [pv_tensors]. rewrite Forall_forall. split.
  - intros H t Ht. apply in_map_iff in Ht as (kv & <- & Hkv). auto.
  - intros H kv Hkv. apply H. apply in_map. exact Hkv.
Qed.
Lemma sep_dwtn_tag w mo n : forall g d t k d', sep_dwtn n d t w mo k = Ok d' -> ttag t = g -> dtag g d -> dtag g d'.
Proof.
  induction n as [|n IH]; intros g d t k d' H Ht Hd; cbn [sep_dwtn] in H; [okinj H; apply dtag_set; assumption|].
  rb H. destruct (C52_analysis t w mo (Some 1%Z)) as [C _]. specialize (C _ _ H0).
  unfold pc_tensors in C. destruct (pc_items x) as [|[a| | |] [|[b| | |] []]]; try discriminate. rb H.
  apply (IH g) in H1; [|rewrite <- Ht; apply C; cbn; auto|exact Hd]. apply (IH g) in H; [exact H|rewrite <- Ht; apply C; cbn; auto|exact H1].
Qed.
Lemma sep_loop_tag w mo m n : forall g t acc r, sep_loop n m w mo t acc = Ok r -> ttag t = g -> Forall (dtag g) acc -> ttag (fst r) = g /\ Forall (dtag g) (snd r).
Proof.
  induction n as [|n IH]; intros g t acc r H Ht Ha; cbn [sep_loop] in H; [okinj H; auto|].
  rb H. rb H. apply (sep_dwtn_tag w mo _ g) in H0; [|exact Ht|constructor].
  unfold dict_pop in H1. destruct (Sep.dict_get x (akey m)) eqn:Eg; [|discriminate]. okinj H1. cbn [fst snd] in H.
  apply (IH g) in H; [exact H|eapply dtag_get; eassumption|]. apply Forall_app. split; [exact Ha|]. constructor; [|constructor]. apply dtag_del. exact H0.
Qed.
Lemma Forall_map_dict g l : Forall (dtag g) l -> Forall (vtag g) (map PDict l).
Proof. intros H. apply Forall_map. eapply Forall_impl; [|exact H]. intros d Hd. apply vtag_dict. exact Hd. Qed.
Theorem C52_fswavedec x w mo level h c :
  (fswavedec2 x w mo level h = Ok c -> forall t, In t (pc_tensors c) -> ttag t = ttag x) /\
  (fswavedec3 x w mo level h = Ok c -> forall t, In t (pc_tensors c) -> ttag t = ttag x).
Proof.
  assert (G : forall N, fswavedecn x w N mo level h = Ok c -> tagged (ttag x) c).
  { intros N H. unfold fswavedecn in H. rb H. destruct x0 as [d ds]. apply preprocess_tensor_tag in H0. rb H. cbn [fst snd] in *. refine (postprocess_tagged _ _ _ _ _ _ H _).
    unfold sep_wavedecn in H1. rb H1. rb H1. okinj H1. apply (sep_loop_tag w mo _ _ (ttag x)) in H3 as [A B]; [|exact H0|constructor].
    apply tagged_items; [intros u [<-|[]]; exact A|]. apply Forall_map_dict. apply Forall_rev'. exact B. }
  split; intros H; exact (G _ H).
Qed.
Lemma sep_pair_tag w c a d u : sep_idwt_pair w c a d = Ok u -> ttag u = ttag a.
Proof.
  unfold sep_idwt_pair. intros H. rb H. rb H. rb H. rb H. rb H. rb H. rb H. apply tag_transpose_last in H, H1. apply tag_reshape in H6. apply tag_reshape_flat in H3. apply tag_slice_to in H0.
  apply C52_synthesis in H5. congruence.
Qed.
Lemma sep_idwtn_loop_tag w g d : dtag g d -> forall keys done r, sep_idwtn_loop d w keys done = Ok r -> dtag g done -> match r with inl t => ttag t = g | inr d' => dtag g d' end.
Proof.
  intros Hd. induction keys as [|k keys IH]; intros done r H Hdone; cbn [sep_idwtn_loop] in H; [okinj H; exact Hdone|].
  destruct (Sep.dict_get d (String "d" (tails_key k))) eqn:E1; [|discriminate]. destruct (Sep.dict_get d k) eqn:E2; [|discriminate]. rb H.
  apply sep_pair_tag in H0. rewrite (dtag_get g d k t0 Hd E2) in H0.
  destruct (tails_key k); [okinj H; exact H0|]. apply IH in H; [exact H|]. apply dtag_set; assumption.
Qed.
Lemma sep_idwtn_tag w g n : forall d u, sep_idwtn n d w = Ok u -> dtag g d -> ttag u = g.
Proof.
  induction n as [|n IH]; intros d u H Hd; cbn [sep_idwtn] in H; [discriminate|]. rb H. rb H. apply (sep_idwtn_loop_tag w g) in H1; [|exact Hd|constructor].
  destruct x0; [okinj H; exact H1|]. apply IH in H; assumption.
Qed.
Lemma sep_rec_loop_tag w g ds : forall a u, fst (sep_rec_loop w a ds) = Ok u -> ttag a = g -> Forall (dtag g) ds -> ttag u = g.
Proof.
  induction ds as [|d ds IH]; intros a u H Ha Hd; cbn [sep_rec_loop] in H; [okinj H; exact Ha|]. inversion Hd; subst. destruct (max_key d); [|discriminate].
  destruct (sep_idwtn _ _ w) as [b|] eqn:E; [|discriminate]. apply (sep_idwtn_tag w (ttag a)) in E; [|apply dtag_set; auto].
  destruct (sep_rec_loop w b ds) as [r l] eqn:Er. cbn [fst] in H. apply (IH b u); [rewrite Er; exact H|exact E|assumption].
Qed.
Lemma check_same_all (c : pycoeffs K) g : check_same_device_dtype c = Ok g ->
  (forall v, In v (pc_items c) -> match v with PTup l => List.length l = 3 | _ => True end) -> tagged g c.
Proof.
  unfold check_same_device_dtype. destruct (pc_items c) as [|v vs] eqn:E; [discriminate|]. intros H Hk t Ht. rb H. rb H. rb H. okinj H. rewrite <- E in Hk.
  destruct (tree_map_in_l _ _ _ H1 t Ht Hk) as (t1 & A). destruct (tree_map_in_l _ _ _ H2 t Ht Hk) as (t2 & B).
  unfold check_same_device in A. destruct (device_eqb (tdevice x) (tdevice t)) eqn:Ea; [|discriminate]. unfold check_same_dtype in B. destruct (dtype_eqb (tdtype x) (tdtype t)) eqn:Eb; [|discriminate].
  unfold tdevice in Ea. unfold tdtype in Eb. destruct (ttag x) as [a b], (ttag t) as [a' b']. cbn in Ea, Eb. f_equal.
  - destruct a, a'; cbn in Eb; congruence.
  - destruct b, b'; cbn in Ea; try congruence; try discriminate; try (apply Nat.eqb_eq in Ea; subst; reflexivity).
Qed.
Theorem C52_fswaverec w h b t (r : list (pyval K)) y :
  (fswaverec2 (mkPC b (PT t :: r)) w h = Ok y -> ttag y = ttag t) /\
  (fswaverec3 (mkPC b (PT t :: r)) w h = Ok y -> ttag y = ttag t).
Proof.
  assert (G : forall N, fswaverecn (mkPC b (PT t :: r)) w N h = Ok y -> ttag y = ttag t).
  { intros N H. unfold fswaverecn, fswaverecn_eff in H. destruct (preprocess_coeffs _ N h false) as [[c ds]|] eqn:E0; [|discriminate].
    destruct (check_same_device_dtype c) as [g|] eqn:E1; [|discriminate]. destruct (sep_waverecn c w) as [y0 c'] eqn:E2. cbn [fst] in H. rb H. apply postprocess_tensor_tag in H. rewrite H. clear H.
    subst y0. unfold sep_waverecn in E2. destruct (pc_items c) as [|[a| | |] rest] eqn:Ei; try discriminate.
    pose proof (first_tag _ _ _ _ _ _ _ _ _ _ E0 eq_refl Ei) as Ht. pose proof (check_same_tagged _ _ E1 _ _ Ei) as Hg. rewrite <- Ht, Hg.
    destruct (rmap as_dict rest) as [dd|] eqn:Er; [|discriminate]. destruct (sep_rec_loop w a dd) as [y1 ds'] eqn:E3. injection E2 as E2 _.
    assert (Hd : rest = map PDict dd).
    { apply rmap_F2 in Er. clear -Er. induction Er as [|v d l l' E _ IH]; [reflexivity|]. cbn [map]. rewrite IH. destruct v; try discriminate. cbn in E. congruence. }
    apply (sep_rec_loop_tag w g dd a x); [rewrite E3; exact E2|exact Hg|].
    apply check_same_all in E1.
    - apply Forall_forall. intros d Hin. apply vtag_dict. intros u Hu. apply E1. unfold pc_tensors. rewrite Ei. cbn. right. apply in_flat_map. exists (PDict d). split; [|exact Hu].
      rewrite Hd. apply in_map. exact Hin.
    - rewrite Ei, Hd. intros v [<-|Hv]; [exact I|]. apply in_map_iff in Hv as (d & <- & _). exact I. }
  split; apply G.
Qed.

(** ** MatrixWavedec, MatrixWaverec *)
Lemma mw_loop_tag w odd mats : forall pads lo acc l g, mw_loop w odd mats pads lo acc = Ok l -> ttag lo = g -> Forall (fun t => ttag t = g) acc -> Forall (fun t => ttag t = g) l.
Proof.
  induction mats as [|a mats IH]; intros pads lo acc l g H Hlo Ha; cbn [mw_loop] in H; [okinj H; apply Forall_app; auto|].
  destruct pads as [|p pads]; [discriminate|]. rb H. rb H. rb H. apply tag_split_half in H2 as [A B]. apply tag_sp_dense in H1.
  assert (E : ttag x = g).
  { destruct p; [|okinj H0; exact Hlo]. rb H0. okinj H0. apply tag_fwt_pad in H2. simt. congruence. }
  apply (IH _ _ _ _ g) in H; [exact H|congruence|]. apply Forall_app. split; [exact Ha|]. constructor; [congruence|constructor].
Qed.
Theorem C52_MatrixWavedec (o : mwavedec K) x c : snd (mw_call LA o x) = Ok c -> forall t, In t (pc_tensors c) -> ttag t = ttag x.
Proof.
  intros H. unfold mw_call in H. destruct (preprocess_tensor x 1 _ false) as [[t0 ds]|] eqn:E0; [|discriminate]. apply preprocess_tensor_tag in E0.
  destruct (if Nat.eqb (dim_last t0 1 mod 2) 0 then Ok t0 else _) as [t|] eqn:E1; [|discriminate].
  assert (E1' : ttag t = ttag x). { destruct (Nat.eqb _ 0); [okinj E1; exact E0|]. apply tag_fwt_pad in E1. congruence. }
  destruct (match mw_level o with None => _ | Some l => _ end) as [[lev rb0]|]; [|discriminate].
  destruct (if (_ || rb0)%bool then _ else _) as [o2 [e|]]; [discriminate|]. cbn [snd] in H. rb H. refine (postprocess_tagged _ _ _ _ _ _ H _).
  apply (mw_loop_tag _ _ _ _ _ _ _ (ttag x)) in H0; [|exact E1'|constructor].
  intros u Hu. unfold pc_tensors in Hu. cbn [pc_items] in Hu. apply in_flat_map in Hu as (v & Hv & Hu). apply in_map_iff in Hv as (s & <- & Hs). destruct Hu as [<-|[]].
  apply in_map_iff in Hs as (q & <- & Hq). apply in_rev in Hq. rewrite Forall_forall in H0. exact (H0 q Hq).
Qed.
Lemma mr_loop_tag his : forall rmats lo u, mr_loop rmats lo his = Ok u -> ttag u = ttag lo.
Proof.
  induction his as [|hi his IH]; intros rmats lo u H; destruct rmats as [|s rmats]; cbn [mr_loop] in H; try (okinj H; reflexivity); destruct (negb _); try discriminate H; rb H; try discriminate H. rb H. rb H. apply IH in H. apply tag_cat_from in H0. apply tag_sp_dense in H1.
  assert (E : ttag x1 = ttag x0). { destruct his; [okinj H2; reflexivity|]. destruct (Nat.eqb _ _); [okinj H2; reflexivity|]. destruct (Nat.eqb _ _); [|discriminate]. okinj H2. reflexivity. }
  congruence.
Qed.
Theorem C52_MatrixWaverec (o : mwaverec K) t (r : list (pyval K)) y : snd (mr_call LA o (PT t :: r)) = Ok y -> ttag y = ttag t.
Proof.
  intros H. unfold mr_call in H. destruct (let* pc := _ in _) as [[[ts ds] g]|] eqn:E0; [|discriminate].
  rb E0. rb E0. rb E0. injection E0 as <- <- <-. destruct x as [c ds']. cbn [fst snd] in *.
  destruct (if (_ || _)%bool then _ else _) as [o2 [e|]]; [discriminate|]. cbn [snd] in H.
  destruct x1 as [|lo his]; [discriminate|]. cbn [map] in H. rb H. apply postprocess_tensor_tag in H. apply mr_loop_tag in H3. rewrite H. simt. rewrite H3.
  apply rmap_F2 in H2. inversion H2 as [|v ? vs ? Hv _ E1 E2]; subst. destruct v as [lo'| | |]; cbn in Hv; try discriminate. okinj Hv.
  eapply first_tag; [exact H0| reflexivity|symmetry; exact E1].
Qed.

(** ** MatrixWavedec2, MatrixWaverec2 *)
Lemma mw2_step_tag w odd ms p s t r : mw2_step w odd ms p s t = Ok r -> ttag (fst r) = ttag t /\ vtag (ttag t) (PTup (snd r)).
Proof.
  unfold mw2_step. destruct ms as [|row [|col []]]; try discriminate. intros H. rb H. rb H. rb H. rb H. rb H. rb H. okinj H. cbn [fst snd].
  apply tag_add_padding in H0. apply tag_batch_mm in H1, H2. apply tag_split2 in H3 as [A B]. apply tag_split2 in H4 as [C D]. apply tag_split2 in H5 as [E F].
  simt. split; [congruence|]. intros u [<-|[<-|[<-|[]]]]; congruence.
Qed.
Lemma mw2_loop_tag w odd mats : forall pads sizes t acc r g, mw2_loop w odd mats pads sizes t acc = Ok r -> ttag t = g -> Forall (vtag g) acc -> ttag (fst r) = g /\ Forall (vtag g) (snd r).
Proof.
  induction mats as [|ms mats IH]; intros pads sizes t acc r g H Ht Ha; cbn [mw2_loop] in H; [okinj H; auto|].
  destruct pads as [|p pads]; [discriminate|]. destruct sizes as [|s sizes]; [discriminate|]. rb H. apply mw2_step_tag in H0 as [A B]. rewrite Ht in *.
  apply (IH _ _ _ _ _ g) in H; auto.
Qed.
Lemma rmap_of_cols_tag b h wd l l' g : rmap (fun e => of_cols e b h wd) l = Ok l' -> Forall (fun t => ttag t = g) l -> Forall (fun t => ttag t = g) l'.
Proof.
  intros H Hl. apply rmap_F2 in H. induction H as [|a a' l l' E _ IH]; [constructor|]. inversion Hl; subst. constructor; [apply tag_of_cols in E; exact E|auto].
Qed.
Lemma mw2n_loop_tag w odd b mats : forall pads sizes v acc r g, mw2n_loop w odd b mats pads sizes v acc = Ok r -> ttag v = g -> Forall (vtag g) acc -> ttag (fst r) = g /\ Forall (vtag g) (snd r).
Proof.
  induction mats as [|ms mats IH]; intros pads sizes t acc r g H Ht Ha; cbn [mw2n_loop] in H; [okinj H; auto|].
  destruct ms as [|m []]; try discriminate. destruct pads as [|p pads]; [discriminate|]. destruct sizes as [|s sizes]; [discriminate|]. rb H. rb H. rb H. rb H.
  assert (E : ttag x = g).
  { destruct (existsb _ p); [|okinj H0; exact Ht]. rb H0. rb H0. apply tag_of_cols in H4. apply tag_add_padding in H5. apply tag_to_cols in H0. congruence. }
  apply tag_sp_dense in H1. apply tag_split4 in H2 as [A Hne]. rewrite H1, E in A. destruct x1 as [|ll rest]; [congruence|]. inversion A; subst. cbn [hd tl] in *.
  apply (rmap_of_cols_tag _ _ _ _ _ (ttag t)) in H3; [|congruence].
  apply (IH _ _ _ _ _ (ttag t)) in H; [exact H|congruence|]. constructor; [|exact Ha]. intros u Hu. rewrite Forall_forall in H3. exact (H3 u Hu).
Qed.
Theorem C52_MatrixWavedec2 (o : mwavedecn K) x c : snd (mw2_call LA o x) = Ok c -> forall t, In t (pc_tensors c) -> ttag t = ttag x.
Proof.
  intros H. unfold mw2_call in H. destruct (preprocess_tensor x 2 _ false) as [[t0 ds]|] eqn:E0; [|discriminate]. apply preprocess_tensor_tag in E0.
  destruct (prepare_n LA o _ _) as [o' [e|]]; [discriminate|]. cbn [snd] in H. rb H. refine (postprocess_tagged _ _ _ _ _ _ H _).
  assert (G : ttag (fst x0) = ttag x /\ Forall (vtag (ttag x)) (snd x0)).
  { destruct (wn_sep o').
    - eapply mw2_loop_tag; [exact H0|exact E0|constructor].
    - rb H0. rb H0. apply tag_to_cols in H1. apply (mw2n_loop_tag _ _ _ _ _ _ _ _ _ (ttag x)) in H2 as [A B]; [|congruence|constructor].
      destruct (wn_mats o'); [discriminate|]. rb H0. okinj H0. apply tag_of_cols in H2. cbn [fst snd]. split; [congruence|exact B]. }
  destruct G as [A B]. apply tagged_items; [intros u [<-|[]]; exact A|exact B].
Qed.
Lemma mr2_level_tag sep s_ ll lh hl hh u : mr2_level sep s_ ll lh hl hh = Ok u -> ttag u = ttag ll.
Proof.
  unfold mr2_level. destruct sep.
  - destruct s_ as [|row [|col []]]; try discriminate. intros H. rb H. rb H. rb H. rb H. apply tag_cat_from in H0, H2. apply tag_batch_mm in H3, H. simt. congruence.
  - destruct s_ as [|m []]; try discriminate. intros H. rb H. rb H. rb H. apply tag_of_cols in H. apply tag_sp_dense in H2. apply rmap_F2 in H0. inversion H0 as [|? ? ? ? E _]; subst.
    apply tag_reshape_last in E. apply tag_cat_from in H1. simt. congruence.
Qed.
Lemma mr2_loop_tag sep his : forall rmats ll u, mr2_loop sep rmats ll his = Ok u -> ttag u = ttag ll.
Proof.
  induction his as [|v his IH]; intros rmats ll u H; destruct rmats as [|s_ rmats]; cbn [mr2_loop] in H; try (okinj H; reflexivity);
    destruct v as [|[|a [|b [|c []]]]| |]; try discriminate H; destruct (negb _); try discriminate H. rb H. rb H. apply IH in H. apply mr2_level_tag in H0.
  assert (E : ttag x0 = ttag x). { destruct his; [okinj H1; reflexivity|]. rb H1. okinj H1. unfold crop2. destruct (Nat.eqb _ _), (Nat.eqb _ _); reflexivity. }
  congruence.
Qed.
Theorem C52_MatrixWaverec2 (o : mwaverecn K) t (r : list (pyval K)) y : snd (mr2_call LA o (PT t :: r)) = Ok y -> ttag y = ttag t.
Proof.
  intros H. unfold mr2_call in H. destruct (let* pc := _ in _) as [[[[items ds] g] hs]|] eqn:E0; [|discriminate].
  rb E0. rb E0. rb E0. rb E0. injection E0 as <- <- <- <-. destruct x as [c ds']. cbn [fst snd] in *.
  destruct (prepare_rec_n LA o _ _ _) as [o' [e|]]; [discriminate|]. cbn [snd] in H. destruct (pc_items c) as [|[ll| | |] his] eqn:Ei; try discriminate. rb H.
  apply postprocess_tensor_tag in H. apply mr2_loop_tag in H4. rewrite H, H4. eapply first_tag; [exact H0|reflexivity|exact Ei].
Qed.

(** ** MatrixWavedec3, MatrixWaverec3 *)
Lemma mats_dims_tag rm : forall t i u, mats_dims rm t i = Ok u -> ttag u = ttag t.
Proof. induction rm as [|m rm IH]; intros t i u H; cbn [mats_dims] in H; [okinj H; reflexivity|]. rb H. apply IH in H. apply tag_batch_dim_mm in H0. congruence. Qed.
Lemma split_rec_tag N f : forall t k d, split_rec f N t k = Ok d -> dtag (ttag t) d.
Proof.
  induction f as [|f IH]; intros t k d H; cbn [split_rec] in H; [okinj H; repeat constructor|]. rb H. rb H. rb H. okinj H. apply tag_split2 in H0 as [A B]. apply IH in H1, H2. rewrite A in H1. rewrite B in H2.
  apply Forall_app. auto.
Qed.
Lemma mw3_loop_tag w odd mats : forall pads t acc r g, mw3_loop w odd mats pads t acc = Ok r -> ttag t = g -> Forall (vtag g) acc -> ttag (fst r) = g /\ Forall (vtag g) (snd r).
Proof.
  induction mats as [|ms mats IH]; intros pads t acc r g H Ht Ha; cbn [mw3_loop] in H; [okinj H; auto|].
  destruct pads as [|p pads]; [discriminate|]. rb H. unfold mw3_step in H0. rb H0. rb H0. rb H0. destruct (Sep.dict_get x2 "aaa") eqn:Eg; [|discriminate]. okinj H0. cbn [fst snd] in H.
  apply tag_fwt_pad_n in H1. apply mats_dims_tag in H2. apply split_rec_tag in H3. rewrite H2, H1, Ht in H3.
  apply (IH _ _ _ _ g) in H; [exact H|eapply dtag_get; eassumption|]. constructor; [|exact Ha]. apply vtag_dict. unfold dtag in *. rewrite Forall_forall in *. intros kv Hkv. apply filter_In in Hkv as [Hkv _]. auto.
Qed.
Theorem C52_MatrixWavedec3 (o : mwavedecn K) x c : snd (mw3_call LA o x) = Ok c -> forall t, In t (pc_tensors c) -> ttag t = ttag x.
Proof.
  intros H. unfold mw3_call in H. destruct (preprocess_tensor x 3 _ false) as [[t0 ds]|] eqn:E0; [|discriminate]. apply preprocess_tensor_tag in E0.
  destruct (prepare_n LA o _ _) as [o' [e|]]; [discriminate|]. cbn [snd] in H. rb H. refine (postprocess_tagged _ _ _ _ _ _ H _).
  apply (mw3_loop_tag _ _ _ _ _ _ _ (ttag x)) in H0 as [A B]; [|exact E0|constructor]. apply tagged_items; [intros u [<-|[]]; exact A|exact B].
Qed.
Lemma cat_pass_tag g d : dtag g d -> forall l done r, cat_pass d l done = Ok r -> dtag g l -> dtag g done -> match r with inl t => ttag t = g | inr d' => dtag g d' end.
Proof.
  intros Hd. induction l as [|kv l IH]; intros done r H Hl Hdone; cbn [cat_pass] in H; [okinj H; exact Hdone|]. rb H. assert (Hkv := Forall_inv Hl); assert (Hl' := Forall_inv_tail Hl); cbv beta in Hkv.
  assert (E : ttag x = g).
  { unfold cat_pair in H0. destruct (Sep.dict_get d _); [|discriminate]. destruct (Nat.ltb _ 4); [discriminate|]. rb H0. destruct (Nat.ltb _ _); [discriminate|]. apply tag_cat_from in H0. apply tag_slice_to in H1. congruence. }
  destruct (str_tl (fst kv)); [okinj H; exact E|]. apply IH in H; [exact H|exact Hl'|]. apply dtag_set; assumption.
Qed.
Lemma cat_rec_tag g f : forall d u, cat_coeff_recursive f d = Ok u -> dtag g d -> ttag u = g.
Proof.
  induction f as [|f IH]; intros d u H Hd; cbn [cat_coeff_recursive] in H; [discriminate|]. destruct (negb _); [discriminate|]. rb H.
  apply (cat_pass_tag g) in H0; [|exact Hd| |constructor].
  - destruct x; [okinj H; exact H0|]. eapply IH; eassumption.
  - unfold dtag in *. rewrite Forall_forall in *. intros kv Hkv. apply filter_In in Hkv as [Hkv _]. auto.
Qed.
Lemma mr3_loop_tag g his : forall rmats lll u, fst (mr3_loop rmats lll his) = Ok u -> ttag lll = g -> Forall (vtag g) his -> ttag u = g.
Proof.
  induction his as [|v his IH]; intros rmats lll u H Hl Hh; cbn [mr3_loop] in H; [okinj H; exact Hl|]. inversion Hh; subst. destruct v as [| |d|]; try discriminate.
  destruct (negb _); [discriminate|]. destruct (negb _); [discriminate|]. remember (dict_set d "aaa" lll) as d' eqn:Ed. 
  destruct (let* c := _ in _) as [[q rm]|] eqn:E0; [|discriminate]. destruct (mr3_loop rm q his) as [r l] eqn:Er. cbn [fst] in H. rb E0.
  apply (cat_rec_tag (ttag lll)) in H0; [|subst d'; apply dtag_set; [apply vtag_dict; assumption|reflexivity]].
  destruct rmats as [|[s_|] rmats]; try discriminate. rb E0. injection E0 as <- <-. apply mats_dims_tag in H1.
  apply (IH rmats x0 u); [rewrite Er; exact H|congruence|assumption].
Qed.
Lemma mr3_loop_dicts his : forall rmats lll u, fst (mr3_loop rmats lll his) = Ok u -> Forall (fun v => exists d, v = PDict d) his.
Proof.
  induction his as [|v his IH]; intros rmats lll u H; [constructor|]. cbn [mr3_loop] in H. destruct v as [| |d|]; try discriminate.
  destruct (negb _); [discriminate|]. destruct (negb _); [discriminate|]. destruct (let* c := _ in _) as [[q rm]|]; [|discriminate].
  destruct (mr3_loop rm q his) as [r l] eqn:Er. cbn [fst] in H. constructor; [eauto|]. apply (IH rm q u). rewrite Er. exact H.
Qed.
Theorem C52_MatrixWaverec3 (o : mwaverecn K) t (r : list (pyval K)) y : snd (fst (mr3_call LA o (PT t :: r))) = Ok y -> ttag y = ttag t.
Proof.
  intros H. unfold mr3_call in H. destruct (let* pc := _ in _) as [[[[items ds] g] hs]|] eqn:E0; [|discriminate].
  rb E0. rb E0. rb E0. rb E0. injection E0 as <- <- <- <-. destruct x as [c ds']. cbn [fst snd] in *.
  destruct (prepare_rec_n LA o _ _ _) as [o' [e|]]; [discriminate|]. destruct (pc_items c) as [|[lll| | |] his] eqn:Ei; try discriminate.
  destruct (mr3_loop _ lll his) as [y0 his'] eqn:El. cbn [fst snd] in H. rb H. subst y0. apply postprocess_tensor_tag in H.
  pose proof (first_tag _ _ _ _ _ _ _ _ _ _ H0 eq_refl Ei) as Ht. pose proof (check_same_tagged _ _ H1 _ _ Ei) as Hg. rewrite H, <- Ht, Hg.
  assert (El' : fst (mr3_loop (from_level (rn_mats o') (List.length (PT lll :: his) - 1)) lll his) = Ok x) by (rewrite El; reflexivity).
  pose proof (mr3_loop_dicts _ _ _ _ El') as Hd. rewrite Forall_forall in Hd.
  eapply mr3_loop_tag; [exact El'|exact Hg|].
  apply check_same_all in H1.
  - apply Forall_forall. intros v Hv u Hu. apply H1. unfold pc_tensors. rewrite Ei. cbn. right. apply in_flat_map. eauto.
  - rewrite Ei. intros v [<-|Hv]; [exact I|]. destruct (Hd v Hv) as (d & ->). exact I.
Qed.
End TagMat.

(** every one of these calls can succeed, here on a float64 tensor of the second graphics card *)
Definition g64 : tag := (float64, cuda 1).
Definition exG (s : list nat) : tensor ZK := mkT (K := ZK) g64 s (dat (exT s)).
Definition exHaar : wavelet ZK := mkWav (K := ZK) [1; 1]%Z [-1; 1]%Z [1; 1]%Z [1; -1]%Z.
Definition exLA : linalg ZK := mkLA (K := ZK) (fun t => t) (fun _ => 0%Z) (fun _ _ => 0%Z).
Definition okn {A} (r : result (pycoeffs A)) : nat := match r with Ok c => List.length (pc_tensors c) | Raise _ => 0 end.
Definition oks {A} (r : result (tensor A)) : list nat := match r with Ok t => shp t | Raise _ => [] end.
Definition items_of {A} (r : result (pycoeffs A)) : list (pyval A) := match r with Ok c => pc_items c | Raise _ => [] end.
Example ex_C52 :
  okn (fswavedec2 (exG [2; 5; 6]) exW4 (Some "zero"%string) (Some 2%Z) AxNone) = 7 /\
  oks (fswaverec2 (mkPC false (items_of (fswavedec2 (exG [2; 5; 6]) exW4 (Some "zero"%string) (Some 2%Z) AxNone))) exW4 AxNone) = [2; 6; 6] /\
  oks (iswt (K := ZK) 1%Z (items_of (swt (exG [2; 8]) exW2 (Some 2%Z) (AxInt (-1)))) exW2 (AxInt (-1))) = [2; 8] /\
  match new_mwavedec exHaar (Some 2%Z) (AxInt (-1)) "qr" (Some "zero"%string), new_mwaverec exHaar (AxInt (-1)) "qr" with
  | Ok o, Ok r => let c := snd (mw_call exLA o (exG [2; 7])) in okn c = 3 /\ oks (snd (mr_call exLA r (items_of c))) = [2; 8] | _, _ => False end /\
  match new_mwavedecn 2 exHaar (Some 2%Z) (AxSeq [-2; -1]%Z) "qr" (Some "zero"%string) false, new_mwaverecn 2 exHaar (AxSeq [-2; -1]%Z) "qr" false with
  | Ok o, Ok r => let c := snd (mw2_call exLA o (exG [2; 5; 4])) in okn c = 7 /\ oks (snd (mr2_call exLA r (items_of c))) = [2; 6; 4] | _, _ => False end /\
  match new_mwavedecn 3 exHaar (Some 1%Z) (AxSeq [-3; -2; -1]%Z) "qr" (Some "zero"%string) true, new_mwaverecn 3 exHaar (AxSeq [-3; -2; -1]%Z) "qr" true with
  | Ok o, Ok r => let c := snd (mw3_call exLA o (exG [1; 2; 3; 4])) in okn c = 8 /\ oks (snd (fst (mr3_call exLA r (items_of c)))) = [1; 2; 4; 4] | _, _ => False end.
Proof. vm_compute. repeat split. Qed.
