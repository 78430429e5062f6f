(** dtype and device of everything the transforms return; rejection of invalid arguments. *)
From Coq Require Import List Arith ZArith Lia Bool String.
From Verif Require Import Base Sums Tensor TensorFacts Util Perm Plumb Accept Spec Conv1 Conv2 Conv3.
Import ListNotations.

Section Tags.
Context {K : CRing}.
Implicit Types t u x y : tensor K.
Implicit Types w : wavelet K.

Definition tagp (f : tensor K -> result (tensor K)) : Prop := forall t u, f t = Ok u -> ttag u = ttag t.
Definition tagged (g : tag) (c : pycoeffs K) : Prop := forall t, In t (pc_tensors c) -> ttag t = g.

Ltac rb H := let x := fresh "x" in let H1 := fresh "H" in apply rbind_ok in H as (x & H1 & H).
Ltac okinj H := injection H as <-.

Lemma tag_squeeze t d : ttag (squeeze t d) = ttag t.
Proof. unfold squeeze. destruct (Nat.eqb _ 1); reflexivity. Qed.
Lemma tag_reshape t s u : reshape t s = Ok u -> ttag u = ttag t.
Proof. unfold reshape. destruct (Nat.eqb _ _); [|discriminate]. intros H. okinj H. reflexivity. Qed.
Lemma tag_permute t p u : torch_permute t p = Ok u -> ttag u = ttag t.
Proof.
  unfold torch_permute. destruct (negb _); [discriminate|]. destruct (negb _); [discriminate|]. destruct (nodupb _); [|discriminate].
  intros H. okinj H. reflexivity.
Qed.
Lemma tag_swap axes : tagp (swap_axes axes).
Proof. intros t u H. unfold swap_axes in H. rb H. destruct (get_transpose_order _ _). apply tag_permute in H. exact H. Qed.
Lemma tag_undo axes : tagp (undo_swap_axes axes).
Proof. intros t u H. unfold undo_swap_axes in H. rb H. destruct (get_transpose_order _ _). apply tag_permute in H. exact H. Qed.
Lemma tag_fold n : tagp (fold_batch n).
Proof. intros t u H. unfold fold_batch, fold_axes in H. rb H. rb H0. okinj H0. okinj H. cbn. apply tag_reshape in H1. exact H1. Qed.
Lemma tag_unfold ds n : tagp (fun t => unfold_axes t ds n).
Proof. intros t u H. unfold unfold_axes in H. apply tag_reshape in H. exact H. Qed.
Lemma tag_cat_from d us : forall t u, cat_from d t us = Ok u -> ttag u = ttag t.
Proof.
  induction us as [|a us IH]; intros t u H; cbn in H; [okinj H; reflexivity|]. rb H. apply IH in H. rewrite H. clear H.
  unfold cat2 in H0. destruct (_ && _)%bool; [|discriminate]. okinj H0. reflexivity.
Qed.
Lemma tag_cat d ts g u : Forall (fun t => ttag t = g) ts -> cat d ts = Ok u -> ttag u = g.
Proof. intros Hf H. destruct ts as [|t ts]; [discriminate|]. inversion Hf; subst. apply tag_cat_from in H. exact H. Qed.
Lemma tag_stack d ts g u : Forall (fun t => ttag t = g) ts -> stack d ts = Ok u -> ttag u = g.
Proof. intros Hf H. destruct ts as [|t ts]; [discriminate|]. inversion Hf; subst. unfold stack in H. destruct (forallb _ _); [|discriminate]. okinj H. reflexivity. Qed.
Lemma tag_conv a b t u r : conv_nd a b t u = Ok r -> ttag r = ttag t.
Proof.
  unfold conv_nd. destruct (shp t) as [|n1 [|n2 s]]; try discriminate. destruct (shp u) as [|m1 [|m2 s']]; try discriminate.
  destruct (_ && _)%bool; [|discriminate]. intros H. okinj H. reflexivity.
Qed.
Lemma tag_convT a b c d t u r : conv_transpose_nd a b c d t u = Ok r -> ttag r = ttag t.
Proof.
  unfold conv_transpose_nd. destruct (shp t) as [|n1 [|n2 s]]; try discriminate. destruct (shp u) as [|m1 [|m2 s']]; try discriminate.
  destruct (_ && _)%bool; [|discriminate]. intros H. okinj H. reflexivity.
Qed.
Lemma tag_fpad t p m r : fpad t p m = Ok r -> ttag r = ttag t.
Proof.
  unfold fpad. destruct (Nat.ltb _ _); [discriminate|]. destruct (negb _); [discriminate|]. destruct (negb _); [discriminate|].
  intros H. okinj H. reflexivity.
Qed.
Lemma tag_psym1 fuel : forall t a b r, pad_symmetric_1d fuel t a b = Ok r -> ttag r = ttag t.
Proof.
  induction fuel as [|fuel IH]; intros t a b r H; [discriminate|]. cbn [pad_symmetric_1d] in H.
  destruct (_ || _)%bool.
  - rb H. destruct x as [s1 p1]. assert (E1 : ttag s1 = ttag t).
    { destruct (Nat.ltb _ a); [rb H0; okinj H0; apply IH in H1; exact H1|okinj H0; reflexivity]. }
    rb H. destruct x as [s2 p2]. assert (E2 : ttag s2 = ttag s1).
    { destruct (Nat.ltb _ b); [rb H1; okinj H1; apply IH in H2; exact H2|okinj H1; reflexivity]. }
    apply IH in H. congruence.
  - apply (tag_cat 0 _ (ttag t)) in H; [exact H|]. destruct (Nat.ltb 0 a), (Nat.ltb 0 b); cbn [app]; repeat constructor.
Qed.
Lemma tag_psym_loop ps : forall t d p r, pad_symmetric_loop t d p ps = Ok r -> ttag r = ttag t.
Proof.
  induction ps as [|[a b] ps IH]; intros t d p r H; cbn [pad_symmetric_loop] in H; [okinj H; reflexivity|].
  rb H. apply IH in H. apply tag_psym1 in H0. rewrite H. cbn. exact H0.
Qed.
Lemma tag_dispatch t p m r : pad_dispatch t p m = Ok r -> ttag r = ttag t.
Proof.
  destruct m as [pm|]; cbn [pad_dispatch]; [apply tag_fpad|]. unfold pad_symmetric. destruct (Nat.ltb _ _); [discriminate|]. apply tag_psym_loop.
Qed.

(** containers *)
Lemma rmap_F2 {A B} (f : A -> result B) l : forall l', rmap f l = Ok l' -> Forall2 (fun a b => f a = Ok b) l l'.
Proof.
  induction l as [|a l IH]; intros l' H; cbn in H; [okinj H; constructor|]. rb H. rb H. okinj H. constructor; [exact H0|]. apply IH. exact H1.
Qed.
Lemma F2_in_r {A B} (R : A -> B -> Prop) l l' b : Forall2 R l l' -> In b l' -> exists a, In a l /\ R a b.
Proof. induction 1 as [|a b' l l' H1 H2 IH]; intros []; subst; [exists a; cbn; auto|]. destruct IH as (a' & ? & ?); auto. exists a'. cbn; auto. Qed.

Lemma tree_map_in (c c' : pycoeffs K) f t' : coeff_tree_map c f = Ok c' -> In t' (pc_tensors c') -> exists t, In t (pc_tensors c) /\ f t = Ok t'.
Proof.
  unfold coeff_tree_map, pc_tensors. destruct (pc_items c) as [|[t| | |] rest]; try discriminate. intros H. rb H. rb H.
  assert (E : pc_items c' = PT x :: x0) by (destruct x0 as [|[]]; okinj H; reflexivity).
  rewrite E. cbn [flat_map pv_tensors app]. intros [<-|Hin]; [exists t; cbn; auto|].
  apply in_flat_map in Hin as (v & Hv & Hin). apply rmap_F2 in H1. destruct (F2_in_r _ _ _ _ H1 Hv) as (v0 & Hv0 & Hm).
  assert (G : exists t0, In t0 (pv_tensors v0) /\ f t0 = Ok t').
  { destruct v0 as [t0|l|d|]; cbn [map_element] in Hm.
    - rb Hm. okinj Hm. destruct Hin as [<-|[]]. exists t0. cbn. auto.
    - destruct l as [|a [|b [|d r]]]; try discriminate; try (rb Hm; discriminate); try (rb Hm; rb Hm; discriminate).
      rb Hm. rb Hm. rb Hm. okinj Hm. cbn in Hin. destruct Hin as [<-|[<-|[<-|[]]]]; [exists a|exists b|exists d]; cbn; auto.
    - rb Hm. okinj Hm. cbn [pv_tensors] in Hin. apply in_map_iff in Hin as (kv & <- & Hkv). unfold map_dict in H2. apply rmap_F2 in H2.
      destruct (F2_in_r _ _ _ _ H2 Hkv) as (kv0 & Hk0 & Hk). rb Hk. okinj Hk. exists (snd kv0). split; [apply in_map; exact Hk0|exact H3].
    - discriminate. }
  destruct G as (t0 & G1 & G2). exists t0. split; [|exact G2]. right. apply in_flat_map. eauto.
Qed.
Lemma tree_map_tagged (c c' : pycoeffs K) f g : tagp f -> coeff_tree_map c f = Ok c' -> tagged g c -> tagged g c'.
Proof. intros Hf H Hg t Ht. destruct (tree_map_in c c' f t H Ht) as (t0 & Ht0 & E). rewrite (Hf _ _ E). apply Hg. exact Ht0. Qed.

Lemma preprocess_tagged (c c' : pycoeffs K) N h ch ds g : preprocess_coeffs c N h ch = Ok (c', ds) -> tagged g c -> tagged g c'.
Proof.
  unfold preprocess_coeffs. intros H Hg. destruct (Nat.leb N 0); [discriminate|]. destruct (pc_items c) as [|v vs]; [discriminate|].
  rb H. destruct (negb _); [discriminate|]. rb H. rb H. rb H.
  assert (G1 : tagged g x2) by (destruct (list_eqb _ _ _); [okinj H3; exact Hg|eapply tree_map_tagged; [apply tag_swap|exact H3|exact Hg]]).
  destruct (pc_items x2) as [|[t1| | |] rest]; try discriminate. rb H.
  assert (G2 : tagged g x3).
  { destruct (Nat.ltb _ N); [discriminate|]. destruct (Nat.eqb _ N).
    - eapply tree_map_tagged; [|exact H4|exact G1]. intros t u E. okinj E. reflexivity.
    - destruct (Nat.ltb _ _); [|okinj H4; exact G1]. eapply tree_map_tagged; [apply tag_fold|exact H4|exact G1]. }
  rb H. injection H as <- <-. destruct ch; [|okinj H5; exact G2].
  eapply tree_map_tagged; [|exact H5|exact G2]. intros t u E. okinj E. reflexivity.
Qed.
Lemma postprocess_tagged (c c' : pycoeffs K) N h ds g : postprocess_coeffs c N ds h = Ok c' -> tagged g c -> tagged g c'.
Proof.
  unfold postprocess_coeffs. intros H Hg. destruct (Nat.leb N 0); [discriminate|]. rb H. rb H.
  assert (G1 : tagged g x0).
  { destruct (Nat.ltb _ N); [discriminate|]. destruct (Nat.eqb _ N).
    - eapply tree_map_tagged; [|exact H1|exact Hg]. intros t u E. okinj E. apply tag_squeeze.
    - destruct (Nat.ltb _ _); [|okinj H1; exact Hg]. eapply tree_map_tagged; [apply tag_unfold|exact H1|exact Hg]. }
  rb H. destruct (list_eqb _ _ _); [okinj H; exact G1|]. eapply tree_map_tagged; [apply tag_undo|exact H|exact G1].
Qed.
Lemma preprocess_tensor_tag x N h ch d ds : preprocess_tensor x N h ch = Ok (d, ds) -> ttag d = ttag x.
Proof.
  unfold preprocess_tensor. intros H. rb H. rb H. injection H as -> _. destruct x0 as [c' ds']. cbn [fst] in H1.
  assert (G : tagged (ttag x) c') by (eapply preprocess_tagged; [exact H0|]; intros t [<-|[]]; reflexivity).
  unfold pc_first in H1. apply G. unfold pc_tensors. destruct (pc_items c') as [|[t| | |] r]; try discriminate. okinj H1. cbn. auto.
Qed.
Lemma postprocess_tensor_tag x N ds h y : postprocess_tensor x N ds h = Ok y -> ttag y = ttag x.
Proof.
  unfold postprocess_tensor. intros H. rb H. 
  assert (G : tagged (ttag x) x0) by (eapply postprocess_tagged; [exact H0|]; intros t [<-|[]]; reflexivity).
  unfold pc_first in H. apply G. unfold pc_tensors. destruct (pc_items x0) as [|[t| | |] r]; try discriminate. okinj H. cbn. auto.
Qed.
Lemma preprocess_dec_tag x w N h d ds a b f : preprocess_deconstruction x w N h = Ok (d, ds, a, b, f) -> ttag d = ttag x.
Proof.
  unfold preprocess_deconstruction. intros H. rb H. destruct x0 as [d' ds']. cbn [get_filter_tensors] in H. rb H.
  injection H as <- <- <- <- <-. apply preprocess_tensor_tag in H0. exact H0.
Qed.
Lemma split1_tag t d u : In u (split1 t d) -> ttag u = ttag t.
Proof. unfold split1. intros H. apply in_map_iff in H as (i & <- & _). reflexivity. Qed.

(** * analysis *)
Lemma wavedec_loop_tag n : forall w mo filt lo acc r, wavedec_loop n w mo filt lo acc = Ok r ->
  Forall (fun t => ttag t = ttag lo) acc -> ttag (fst r) = ttag lo /\ Forall (fun t => ttag t = ttag lo) (snd r).
Proof.
  induction n as [|n IH]; intros w mo filt lo acc r H Ha; cbn [wavedec_loop] in H; [okinj H; auto|].
  rb H. rb H. assert (E : ttag x0 = ttag lo).
  { apply tag_conv in H1. unfold fwt_pad in H0. rb H0. apply tag_dispatch in H0. congruence. }
  destruct (split1 x0 1) as [|a [|b [|]]] eqn:Es; try discriminate.
  assert (Ea : ttag a = ttag lo) by (rewrite <- E; apply (split1_tag x0 1); rewrite Es; cbn; auto).
  assert (Eb : ttag b = ttag lo) by (rewrite <- E; apply (split1_tag x0 1); rewrite Es; cbn; auto).
  apply IH in H; rewrite Ea in *; auto. apply Forall_app. split; [exact Ha|]. constructor; [rewrite tag_squeeze; exact Eb|constructor].
Qed.
Lemma analysis_step_tag N w mo filt t l : analysis_step N w mo filt t = Ok l -> Forall (fun u => ttag u = ttag t) l.
Proof.
  unfold analysis_step. intros H. rb H. rb H. okinj H. apply tag_conv in H1. unfold fwt_pad_n in H0. rb H0. apply tag_dispatch in H0.
  apply Forall_forall. intros u Hu. apply split1_tag in Hu. congruence.
Qed.
Definition vtag (g : tag) (v : pyval K) : Prop := forall t, In t (pv_tensors v) -> ttag t = g.
Lemma wavedec2_loop_tag n : forall w mo filt lo acc r, wavedec2_loop n w mo filt lo acc = Ok r ->
  Forall (vtag (ttag lo)) acc -> ttag (fst r) = ttag lo /\ Forall (vtag (ttag lo)) (snd r).
Proof.
  induction n as [|n IH]; intros w mo filt lo acc r H Ha; cbn [wavedec2_loop] in H; [okinj H; auto|].
  rb H. apply analysis_step_tag in H0. destruct x as [|a [|b [|c [|d [|]]]]]; try discriminate.
  inversion H0 as [|? ? Ea H0a]; subst. inversion H0a as [|? ? Eb H0b]; subst. inversion H0b as [|? ? Ec H0c]; subst. inversion H0c as [|? ? Ed _]; subst.
  apply IH in H; rewrite Ea in *; auto. apply Forall_app. split; [exact Ha|]. constructor; [|constructor].
  intros t Ht. cbn in Ht. destruct Ht as [<-|[<-|[<-|[]]]]; rewrite tag_squeeze; assumption.
Qed.
Lemma wavedec3_loop_tag n : forall w mo filt lo acc r, wavedec3_loop n w mo filt lo acc = Ok r ->
  Forall (vtag (ttag lo)) acc -> ttag (fst r) = ttag lo /\ Forall (vtag (ttag lo)) (snd r).
Proof.
  induction n as [|n IH]; intros w mo filt lo acc r H Ha; cbn [wavedec3_loop] in H; [okinj H; auto|].
  rb H. apply analysis_step_tag in H0.
  assert (Eu : ttag (if Nat.eqb (rank lo) 4 then unsqueeze lo 1 else lo) = ttag lo) by (destruct (Nat.eqb _ 4); reflexivity).
  rewrite Eu in H0.
  assert (Hs : Forall (fun u => ttag u = ttag lo) (map (fun s => squeeze s 1) x)).
  { apply Forall_map. eapply Forall_impl; [|exact H0]. cbv beta. intros a E. rewrite tag_squeeze. exact E. }
  destruct (map (fun s => squeeze s 1) x) as [|c0 [|c1 [|c2 [|c3 [|c4 [|c5 [|c6 [|c7 [|]]]]]]]]]; try discriminate.
  rewrite Forall_forall in Hs.
  assert (E0 : ttag c0 = ttag lo) by (apply Hs; cbn; tauto).
  apply IH in H; rewrite E0 in *; auto. apply Forall_app. split; [exact Ha|]. constructor; [|constructor].
  intros t Ht. apply Hs. cbn in Ht |- *. tauto.
Qed.
Lemma tagged_items g b v vs : vtag g v -> Forall (vtag g) vs -> tagged g (mkPC b (v :: vs)).
Proof.
  intros Hv Hvs t Ht. unfold pc_tensors in Ht. cbn [pc_items flat_map] in Ht. apply in_app_or in Ht as [Ht|Ht]; [apply Hv; exact Ht|].
  apply in_flat_map in Ht as (u & Hu & Ht). rewrite Forall_forall in Hvs. apply (Hvs u Hu). exact Ht.
Qed.
Lemma Forall_rev' {A} (P : A -> Prop) l : Forall P l -> Forall P (rev l).
Proof. intros H. apply Forall_forall. intros a Ha. apply in_rev in Ha. rewrite Forall_forall in H. auto. Qed.

(** ** C52 (analysis): dtype and device ([ttag]) of all returned tensors *)
Theorem C52_analysis x w mo level :
  (forall axis c, wavedec x w mo level axis = Ok c -> forall t, In t (pc_tensors c) -> ttag t = ttag x) /\
  (forall h c, wavedec2 x w mo level h = Ok c -> forall t, In t (pc_tensors c) -> ttag t = ttag x) /\
  (forall h c, wavedec3 x w mo level h = Ok c -> forall t, In t (pc_tensors c) -> ttag t = ttag x).
Proof.
  split; [|split].
  - intros axis c H. unfold wavedec in H. rb H. destruct x0 as [[[[d ds] dl] dh] f]. apply preprocess_dec_tag in H0. rb H. rb H. destruct x1 as [lo acc].
    apply wavedec_loop_tag in H2; [|constructor]. cbn [fst snd] in H2. destruct H2 as [E1 E2]. rewrite H0 in E1, E2.
    refine (postprocess_tagged _ _ _ _ _ _ H _). intros t Ht. rewrite pc_tensors_list in Ht. apply in_rev in Ht. rewrite Forall_forall in E2.
    apply in_app_or in Ht as [Ht|[<-|[]]]; [auto|]. rewrite tag_squeeze. exact E1.
  - intros h c H. unfold wavedec2 in H. rb H. destruct x0 as [[[[d ds] dl] dh] f]. apply preprocess_dec_tag in H0. rb H. rb H. destruct x1 as [lo acc].
    apply wavedec2_loop_tag in H2; [|constructor]. cbn [fst snd] in H2. destruct H2 as [E1 E2]. rewrite H0 in E1, E2.
    refine (postprocess_tagged _ _ _ _ _ _ H _). apply tagged_items; [|apply Forall_rev'; exact E2]. intros t [<-|[]]. rewrite tag_squeeze. exact E1.
  - intros h c H. unfold wavedec3 in H. rb H. destruct x0 as [[[[d ds] dl] dh] f]. apply preprocess_dec_tag in H0. rb H. rb H. destruct x1 as [lo acc].
    apply wavedec3_loop_tag in H2; [|constructor]. cbn [fst snd] in H2. destruct H2 as [E1 E2]. rewrite H0 in E1, E2.
    refine (postprocess_tagged _ _ _ _ _ _ H _). apply tagged_items; [|apply Forall_rev'; exact E2]. intros t [<-|[]]. exact E1.
Qed.

(** * synthesis *)
Lemma first_tag (c c' : pycoeffs K) N h ch ds t t' r r' : preprocess_coeffs c N h ch = Ok (c', ds) -> pc_items c = PT t :: r -> pc_items c' = PT t' :: r' -> ttag t' = ttag t.
Proof.
  assert (G : forall (c c' : pycoeffs K) f t r, tagp f -> coeff_tree_map c f = Ok c' -> pc_items c = PT t :: r -> exists t' r', pc_items c' = PT t' :: r' /\ ttag t' = ttag t).
  { intros c1 c2 f t1 r1 Hf H E. unfold coeff_tree_map in H. rewrite E in H. rb H. rb H. exists x, x0. split; [destruct x0 as [|[]]; okinj H; reflexivity|]. apply Hf in H0. exact H0. }
  unfold preprocess_coeffs. intros H E E'. destruct (Nat.leb N 0); [discriminate|]. rewrite E in H. cbn [check_if_tensor rbind] in H.
  destruct (negb _); [discriminate|]. rb H. rb H. rb H.
  assert (G1 : exists t1 r1, pc_items x1 = PT t1 :: r1 /\ ttag t1 = ttag t).
  { destruct (list_eqb _ _ _); [okinj H2; eauto|]. eapply G; [apply tag_swap|exact H2|exact E]. }
  destruct G1 as (t1 & r1 & Ei & Et). rewrite Ei in H. rb H.
  assert (G2 : exists t2 r2, pc_items x2 = PT t2 :: r2 /\ ttag t2 = ttag t1).
  { destruct (Nat.ltb _ N); [discriminate|]. destruct (Nat.eqb _ N).
    - eapply G; [|exact H3|exact Ei]. intros u v Eu. okinj Eu. reflexivity.
    - destruct (Nat.ltb _ _); [|okinj H3; eauto]. eapply G; [apply tag_fold|exact H3|exact Ei]. }
  destruct G2 as (t2 & r2 & Ei2 & Et2). rb H. injection H as <- <-. destruct ch.
  - destruct (G x2 x3 (fun y => Ok (unsqueeze y 1)) t2 r2) as (t3 & r3 & E3 & Et3); auto.
    { intros u v Eu. okinj Eu. reflexivity. } rewrite E3 in E'. injection E' as <- <-. congruence.
  - okinj H4. rewrite Ei2 in E'. injection E' as <- <-. congruence.
Qed.
Lemma tag_slice_from t d a : ttag (slice_from t d a) = ttag t. Proof. reflexivity. Qed.
Lemma tag_crop_last t i a b : ttag (crop_last t i a b) = ttag t.
Proof. unfold crop_last. destruct (Nat.ltb 0 a), (Nat.ltb 0 b); reflexivity. Qed.
Lemma tag_stack_hd d t (ts : list (tensor K)) u : stack d (t :: ts) = Ok u -> ttag u = ttag t.
Proof. unfold stack. destruct (forallb _ _); [|discriminate]. intros H. okinj H. reflexivity. Qed.
Lemma waverec_loop_tag his : forall filt L lo (r : tensor K), waverec_loop filt L lo his = Ok r -> ttag r = ttag lo.
Proof.
  induction his as [|hi his IH]; intros filt L lo r H; cbn [waverec_loop] in H; [okinj H; reflexivity|]. rb H. apply IH in H. rewrite H. clear H.
  unfold waverec_step in H0. rb H0. rb H0. rb H0. destruct x2 as [p q]. okinj H0. apply tag_stack_hd in H. apply tag_convT in H1.
  destruct (Nat.ltb 0 q), (Nat.ltb 0 p); cbn [ttag narrow tmake slice_dropend slice_from]; unfold slice_dropend, slice_from; cbn [narrow ttag tmake]; rewrite ?tag_squeeze; congruence.
Qed.
Lemma waverec2_loop_tag his : forall filt L lo (r : tensor K), waverec2_loop filt L lo his = Ok r -> ttag r = ttag lo.
Proof.
  induction his as [|v his IH]; intros filt L lo r H; cbn [waverec2_loop] in H; [okinj H; reflexivity|].
  destruct v as [|[|a [|b [|c [|]]]]| |]; try discriminate. destruct (forallb _ _); [|discriminate]. rb H. rb H. apply IH in H. rewrite H. clear H.
  unfold waverec2_step in H1. rb H1. rb H1. rb H1. destruct x3 as [[p q] [p' q']]. okinj H1. apply tag_stack_hd in H. apply tag_convT in H2.
  rewrite !tag_crop_last, tag_squeeze. congruence.
Qed.
Lemma waverec3_loop_tag his : forall filt L lo (r : tensor K), waverec3_loop filt L lo his = Ok r -> ttag r = ttag lo.
Proof.
  induction his as [|v his IH]; intros filt L lo r H; cbn [waverec3_loop] in H; [okinj H; reflexivity|].
  destruct v as [| |d|]; try discriminate. destruct (Nat.eqb _ 7); [|discriminate]. destruct (forallb _ _); [|discriminate]. rb H. rb H. apply IH in H. rewrite H. clear H.
  unfold waverec3_step in H1. rb H1. rb H1. rb H1. rb H1. destruct x4 as [[[p q] [p' q']] [p'' q'']]. okinj H1. apply tag_stack_hd in H2. apply tag_convT in H3.
  rewrite !tag_crop_last, tag_squeeze. congruence.
Qed.
Lemma check_same_tagged (c : pycoeffs K) g : check_same_device_dtype c = Ok g ->
  forall t r, pc_items c = PT t :: r -> ttag t = g.
Proof.
  unfold check_same_device_dtype. intros H t r E. rewrite E in H. cbn [check_if_tensor rbind] in H. rb H. rb H. okinj H. reflexivity.
Qed.

(** ** C52 (synthesis): the result has the dtype and device of the approximation *)
Theorem C52_synthesis w h t (r : list (pyval K)) y :
  (waverec (PT t :: r) w h = Ok y -> ttag y = ttag t) /\
  (forall b, waverec2 (mkPC b (PT t :: r)) w h = Ok y -> ttag y = ttag t) /\
  (forall b, waverec3 (mkPC b (PT t :: r)) w h = Ok y -> ttag y = ttag t).
Proof.
  split; [|split].
  - intros H. unfold waverec in H. rb H. destruct x as [c ds]. rb H. cbn [get_filter_tensors] in H. rb H. rb H.
    destruct x1 as [|lo his]; [discriminate|]. rb H. apply postprocess_tensor_tag in H. apply waverec_loop_tag in H4. rewrite H, H4.
    apply rmap_F2 in H3. inversion H3 as [|v ? vs ? Hv _ E1 E2]; subst. destruct v as [lo'| | |]; cbn in Hv; try discriminate. okinj Hv.
    eapply first_tag; [exact H0| reflexivity|symmetry; exact E1].
  - intros b H. unfold waverec2 in H. rb H. destruct x as [c ds]. rb H. cbn [get_filter_tensors] in H. rb H.
    destruct (pc_items c) as [|[lo| | |] his] eqn:E; try discriminate. rb H. apply postprocess_tensor_tag in H. apply waverec2_loop_tag in H3. rewrite H, H3.
    eapply first_tag; [exact H0| reflexivity|exact E].
  - intros b H. unfold waverec3 in H. rb H. destruct x as [c ds]. rb H. cbn [get_filter_tensors] in H. rb H.
    destruct (pc_items c) as [|[lo| | |] his] eqn:E; try discriminate. rb H. apply postprocess_tensor_tag in H. apply waverec3_loop_tag in H3. rewrite H, H3.
    eapply first_tag; [exact H0| reflexivity|exact E].
Qed.

(** ** C10: arguments that are rejected *)
Lemma preprocess_tensor_value_error x N h ch :
  is_dtype_supported (tdtype x) = false \/ N = 0 \/ hint_axes h N = None \/
  (exists l, h = AxSeq l /\ ~ NoDup l) \/ (h = AxNone /\ rank x < N) ->
  preprocess_tensor x N h ch = Raise ValueError.
Proof.
  intros H. unfold preprocess_tensor, preprocess_coeffs. destruct (Nat.leb_spec N 0); [reflexivity|]. cbn [pc_items check_if_tensor rbind].
  destruct (is_dtype_supported (tdtype x)) eqn:Ed; cbn [negb]; [|reflexivity].
  destruct H as [H|[H|[H|[(l & -> & H)|[-> H]]]]]; [discriminate|lia| | |].
  - assert (E : ensure_axes h N = Raise ValueError).
    { destruct h as [|z|l]; cbn [hint_axes ensure_axes] in H |- *.
      - unfold get_default_axes. destruct (Nat.ltb N 1); [reflexivity|discriminate].
      - destruct (Nat.eqb N 1); [discriminate|reflexivity].
      - destruct (Nat.eqb _ N); [discriminate|reflexivity]. }
    rewrite E. reflexivity.
  - cbn [ensure_axes]. destruct (Nat.eqb _ N); [|reflexivity]. unfold check_axes_argument. destruct (nodupz l) eqn:En; [|reflexivity].
    apply nodupz_spec in En. contradiction.
  - cbn [ensure_axes]. unfold get_default_axes. destruct (Nat.ltb_spec N 1); [lia|]. cbn [rbind].
    replace (list_eqb Z.eqb _ _) with true by (symmetry; apply list_eqb_Z_spec; reflexivity). cbn [rbind pc_items].
    destruct (Nat.ltb_spec (List.length (shp x)) N); [reflexivity|unfold rank in H; lia].
Qed.

Lemma is_float x : is_dtype_supported (tdtype x) = true <-> float_tensor x.
Proof. unfold float_tensor. destruct (tdtype x); cbn; split; intros H; auto; try discriminate; destruct H; discriminate. Qed.
Lemma not_float x : is_dtype_supported (tdtype x) = false <-> ~ float_tensor x.
Proof. rewrite <- is_float. destruct (is_dtype_supported (tdtype x)); split; intros H; congruence. Qed.
(** wrong dtype, wrong number of axes, repeated axes, too few dimensions: ValueError *)
Theorem C10_value_error x w mo level :
  (forall axis, ~ float_tensor x -> wavedec x w mo level axis = Raise ValueError) /\
  (forall h, ~ float_tensor x \/ hint_axes h 2 = None \/ (exists l, h = AxSeq l /\ ~ NoDup l) \/ (h = AxNone /\ rank x < 2) ->
     wavedec2 x w mo level h = Raise ValueError) /\
  (forall h, ~ float_tensor x \/ hint_axes h 3 = None \/ (exists l, h = AxSeq l /\ ~ NoDup l) \/ (h = AxNone /\ rank x < 3) ->
     wavedec3 x w mo level h = Raise ValueError).
Proof.
  pose proof (not_float x) as Hnf. split; [|split].
  - intros axis H. unfold wavedec, preprocess_deconstruction. rewrite preprocess_tensor_value_error by tauto. reflexivity.
  - intros h H. unfold wavedec2, preprocess_deconstruction. rewrite preprocess_tensor_value_error by tauto. reflexivity.
  - intros h H. unfold wavedec3, preprocess_deconstruction. rewrite preprocess_tensor_value_error by tauto. reflexivity.
Qed.

(** no result unless the dtype is supported and the axes are distinct dimensions of the tensor *)
Theorem C10_no_result x w mo level c :
  (forall axis, wavedec x w mo level axis = Ok c -> float_tensor x /\ (- Z.of_nat (rank x) <= axis < Z.of_nat (rank x))%Z) /\
  (forall h, wavedec2 x w mo level h = Ok c -> float_tensor x /\ exists ax, hint_axes h 2 = Some ax /\ axes_ok (rank x) ax) /\
  (forall h, wavedec3 x w mo level h = Ok c -> float_tensor x /\ exists ax, hint_axes h 3 = Some ax /\ axes_ok (rank x) ax).
Proof.
  split; [|split]; [intros axis H|intros h H|intros h H]; unfold wavedec, wavedec2, wavedec3, preprocess_deconstruction in H; rb H; rb H0;
  apply preprocess_tensor_inv in H1 as (A & _ & ax & B & _ & C); apply is_float in A.
  - split; [exact A|]. cbn in B. injection B as <-. destruct C as [C _]. inversion C; assumption.
  - eauto. - eauto.
Qed.

(** an unknown boundary mode is a ValueError as soon as a level has to be computed *)
Theorem C10_unknown_mode x w s z :
  ~ In s ["constant"; "zero"; "reflect"; "periodic"; "symmetric"]%string -> (0 < z)%Z ->
  (forall axis, wavedec x w (Some s) (Some z) axis = Raise ValueError \/ exists e, preprocess_deconstruction x w 1 (AxInt axis) = Raise e) /\
  (forall h, wavedec2 x w (Some s) (Some z) h = Raise ValueError \/ exists e, preprocess_deconstruction x w 2 h = Raise e) /\
  (forall h, wavedec3 x w (Some s) (Some z) h = Raise ValueError \/ exists e, preprocess_deconstruction x w 3 h = Raise e).
Proof.
  intros Hs Hz. assert (E : translate_boundary (Some s) = Raise ValueError).
  { cbn. repeat (match goal with |- context [String.eqb s ?q] => destruct (String.eqb_spec s q); [subst; exfalso; apply Hs; cbn; tauto|] end). reflexivity. }
  assert (Hn : exists n, Z.to_nat z = S n) by (destruct (Z.to_nat z) eqn:En; [lia|eauto]). destruct Hn as [n Hn].
  split; [|split]; [intros axis|intros h|intros h]; [unfold wavedec|unfold wavedec2|unfold wavedec3];
  (destruct (preprocess_deconstruction _ _ _ _) as [[[[[d ds] dl] dh] f]|e]; [left|right; eauto]); cbn [rbind]; unfold range_level; rewrite Hn.
  - cbn [wavedec_loop]. unfold fwt_pad. rewrite E. reflexivity.
  - cbn [wavedec2_loop]. unfold analysis_step, fwt_pad_n. rewrite E. reflexivity.
  - cbn [wavedec3_loop]. unfold analysis_step, fwt_pad_n. rewrite E. reflexivity.
Qed.
End Tags.
