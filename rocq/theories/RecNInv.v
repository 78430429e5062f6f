(** Exactly which coefficient containers waverec2 and waverec3 accept (shapes, dtypes, keys). *)
From Coq Require Import List Arith ZArith Lia Bool String.
From Coq Require Import ZifyNat ZifyBool.
From Verif Require Import Base Sums Tensor TensorFacts Util Perm Plumb Accept Spec Conv1 PadFacts CoreFacts Analysis AnalysisInv PRKernel Synthesis Filters Wave1 Wave1Inv Rec1 Rec1Inv Conv2 Conv3 Spec2 WaveN RecN Lin Props1 Props2.
Import ListNotations.

Section RNI.
Context {K : CRing}.
Add Ring Kring : (cr_th K).
Implicit Types t u x y lo hi : tensor K.
Implicit Types w : wavelet K.

(** * containers: what a tree map does to every entry (a tuple may be cut) *)
Definition pv_rel (R : tensor K -> tensor K -> Prop) (v v' : pyval K) : Prop :=
  match v, v' with
  | PT t, PT t' => R t t'
  | PTup l, PTup l' => Forall2 R (firstn (List.length l') l) l'
  | PDict d, PDict d' => Forall2 (fun kv kv' => fst kv' = fst kv /\ R (snd kv) (snd kv')) d d'
  | POther, POther => True
  | _, _ => False
  end.

Lemma pv_rel_refl (R : tensor K -> tensor K -> Prop) v : (forall t, R t t) -> pv_rel R v v.
Proof.
  intros H. destruct v as [t|l|d|]; cbn; auto.
  - rewrite firstn_all. induction l; constructor; auto.
  - induction d; constructor; auto.
Qed.
Lemma F2_firstn {A B} (R : A -> B -> Prop) n : forall l l', Forall2 R l l' -> Forall2 R (firstn n l) (firstn n l').
Proof. induction n as [|n IH]; intros l l' H; [constructor|]. destruct H; cbn; constructor; auto. Qed.
Lemma F2_comp {A B C} (R : A -> B -> Prop) (S : B -> C -> Prop) l l' l'' : Forall2 R l l' -> Forall2 S l' l'' -> Forall2 (fun a c => exists b, R a b /\ S b c) l l''.
Proof. intros H. revert l''. induction H; intros l'' H'; inversion H'; subst; constructor; eauto. Qed.
Lemma pv_rel_comp (R S : tensor K -> tensor K -> Prop) v v' v'' : pv_rel R v v' -> pv_rel S v' v'' -> pv_rel (fun t t'' => exists t', R t t' /\ S t' t'') v v''.
Proof.
  destruct v as [t|l|d|], v' as [t'|l'|d'|]; cbn [pv_rel]; try contradiction; destruct v'' as [t''|l''|d''|]; cbn [pv_rel]; try contradiction; auto.
  - eauto.
  - intros H1 H2. apply F2_firstn with (n := List.length l'') in H1.
    assert (Hl : (List.length l'' <= List.length l')%nat) by (apply F2_len in H2; rewrite firstn_length in H2; lia).
    rewrite firstn_firstn, Nat.min_l in H1 by exact Hl. exact (F2_comp _ _ _ _ _ H1 H2).
  - intros H1 H2. pose proof (F2_comp _ _ _ _ _ H1 H2) as H. eapply F2_impl; [|exact H]. cbv beta. intros kv kv'' (kv' & [E1 A1] & [E2 A2]).
    split; [congruence|eauto].
Qed.

Lemma tree_map_rel (c c' : pycoeffs K) f : coeff_tree_map c f = Ok c' -> Forall2 (pv_rel (fun t t' => f t = Ok t')) (pc_items c) (pc_items c').
Proof.
  unfold coeff_tree_map. destruct (pc_items c) as [|[t0| | |] rest]; try discriminate. intros H.
  apply rbind_ok in H as (a & Ha & H). apply rbind_ok in H as (res & Hres & H).
  assert (Hi : pc_items c' = PT a :: res).
  { destruct res as [|v res]; [apply ok_inj in H; subst c'; reflexivity|].
    destruct v; apply ok_inj in H; subst c'; reflexivity. }
  rewrite Hi. constructor; [exact Ha|]. apply rmap_inv in Hres. eapply F2_impl; [|exact Hres]. cbv beta. clear. intros v v' H.
  destruct v as [t|l|d|]; cbn [map_element] in H.
  - apply rbind_ok in H as (u & Hu & H). apply ok_inj in H. subst v'. exact Hu.
  - destruct l as [|x1 [|x2 [|x3 l]]].
    + discriminate.
    + apply rbind_ok in H as (? & _ & H). discriminate.
    + apply rbind_ok in H as (? & _ & H). apply rbind_ok in H as (? & _ & H). discriminate.
    + apply rbind_ok in H as (y1 & H1 & H). apply rbind_ok in H as (y2 & H2 & H). apply rbind_ok in H as (y3 & H3 & H). apply ok_inj in H. subst v'.
      cbn. repeat constructor; assumption.
  - apply rbind_ok in H as (d' & Hd & H). apply ok_inj in H. subst v'. cbn. unfold map_dict in Hd. apply rmap_inv in Hd.
    eapply F2_impl; [|exact Hd]. cbv beta. intros [k t] kv' E. cbn [fst snd] in *. apply rbind_ok in E as (t' & Ht & E). apply ok_inj in E. subst kv'. auto.
  - discriminate.
Qed.

(** * preprocessing: what happened to one tensor *)
Definition naxes (axes : list Z) t : list nat := map (norm_axis (rank t)) axes.
(** the shape a coefficient tensor has inside the transform: product of the batch sizes, then the transformed axes *)
Definition folded (axes : list Z) t : list nat := prodl (fsz (naxes axes t) (shp t)) :: gather (naxes axes t) 0%nat (shp t).
Definition pre_rel (axes : list Z) (n : nat) t t2 : Prop :=
  ttag t2 = ttag t /\ (rank t2 = (n + 1)%nat -> axes_ok (rank t) axes /\ shp t2 = folded axes t).

Lemma swap_inv axes t t1 : swap_axes axes t = Ok t1 -> axes_ok (rank t) axes /\ ttag t1 = ttag t /\
  shp t1 = fsz (naxes axes t) (shp t) ++ gather (naxes axes t) 0%nat (shp t).
Proof.
  intros H. pose proof (swap_axes_inv _ _ _ H) as Ha. rewrite swap_axes_ok in H by exact Ha. apply ok_inj in H. subst t1.
  split; [exact Ha|]. split; [reflexivity|]. apply shp_permute_perm_of.
Qed.
Lemma default_split t n : (n <= rank t)%nat -> fsz (naxes (default_axes n) t) (shp t) ++ gather (naxes (default_axes n) t) 0%nat (shp t) = shp t.
Proof.
  intros Hn. unfold fsz. rewrite <- gather_app. change (front_of (naxes (default_axes n) t) (List.length (shp t)) ++ naxes (default_axes n) t) with (perm_of (naxes (default_axes n) t) (rank t)).
  unfold naxes. rewrite perm_of_default by exact Hn. apply Lin.gather_seq_all. reflexivity.
Qed.

Lemma preprocess_rel (c c2 : pycoeffs K) n h ds : (1 <= n)%nat -> preprocess_coeffs c n h false = Ok (c2, ds) ->
  exists axes lo rest, hint_axes h n = Some axes /\ List.length axes = n /\ pc_items c = PT lo :: rest /\
    is_dtype_supported (tdtype lo) = true /\ axes_ok (rank lo) axes /\
    Forall2 (pv_rel (pre_rel axes n)) (pc_items c) (pc_items c2).
Proof.
  intros Hn H. unfold preprocess_coeffs in H. destruct (Nat.leb_spec n 0); [lia|].
  destruct (pc_items c) as [|v rest] eqn:Ec; [discriminate|]. apply rbind_ok in H as (lo & Hlo & H).
  destruct v as [lo'| | |]; cbn in Hlo; try discriminate. apply ok_inj in Hlo. subst lo'.
  destruct (is_dtype_supported (tdtype lo)) eqn:Hd; [|discriminate]. cbn [negb] in H.
  apply rbind_ok in H as (axes & Hax & H). apply ensure_axes_inv in Hax as [Hh Hl]. exists axes, lo, rest.
  apply rbind_ok in H as (dax & Hdax & H). unfold get_default_axes in Hdax. destruct (Nat.ltb_spec n 1); [discriminate|]. apply ok_inj in Hdax.
  fold (default_axes n) in Hdax. subst dax.
  apply rbind_ok in H as (c1 & Hc1 & H). destruct (pc_items c1) as [|[t1| | |] rest1] eqn:Ei1; try discriminate.
  apply rbind_ok in H as (c3 & Hc2 & H). cbn [rbind] in H. apply ok_inj in H. injection H as -> _.
  destruct (Nat.ltb_spec (List.length (shp t1)) n) as [|Hge]; [discriminate|].
  set (R1 := fun t t1 => ttag t1 = ttag t /\ ((n <= rank t1)%nat -> axes_ok (rank t) axes /\ shp t1 = fsz (naxes axes t) (shp t) ++ gather (naxes axes t) 0%nat (shp t))).
  set (R2 := fun t1 t2 => ttag t2 = ttag t1 /\ (rank t2 = (n + 1)%nat -> (n <= rank t1)%nat /\ shp t2 = prodl (firstn (rank t1 - n) (shp t1)) :: skipn (rank t1 - n) (shp t1))).
  assert (F1 : Forall2 (pv_rel R1) (pc_items c) (pc_items c1)).
  { destruct (list_eqb Z.eqb axes (default_axes n)) eqn:E.
    - apply list_eqb_Z_spec in E. apply ok_inj in Hc1. subst c1. clear - E. induction (pc_items c) as [|v l IH]; constructor; auto.
      apply pv_rel_refl. intros t. split; [reflexivity|]. intros Hr. rewrite E. split; [apply default_axes_ok; exact Hr|]. rewrite default_split; auto.
    - apply tree_map_rel in Hc1. eapply F2_impl; [|exact Hc1]. cbv beta. intros v v'.
      assert (Hi : forall t t', swap_axes axes t = Ok t' -> R1 t t').
      { intros t t' Hs. apply swap_inv in Hs as (A & B & C). split; [exact B|]. intros _. auto. }
      clear - Hi. destruct v, v'; cbn; auto; apply F2_impl; [apply Hi|]. intros kv kv' [A B]. auto. }
  assert (F2 : Forall2 (pv_rel R2) (pc_items c1) (pc_items c2)).
  { assert (Hmap : forall f, coeff_tree_map c1 f = Ok c2 -> (forall t t', f t = Ok t' -> R2 t t') -> Forall2 (pv_rel R2) (pc_items c1) (pc_items c2)).
    { intros f Hf HR. apply tree_map_rel in Hf. eapply F2_impl; [|exact Hf]. cbv beta. clear - HR. intros v v'. destruct v, v'; cbn; auto; apply F2_impl; [apply HR|].
      intros kv kv' [A B]. auto. }
    destruct (Nat.eqb_spec (List.length (shp t1)) n) as [E|E].
    - apply (Hmap _ Hc2). intros t t' Ht. apply ok_inj in Ht. subst t'. split; [reflexivity|]. cbn [unsqueeze shp rank].
      unfold rank. cbn [shp unsqueeze insertn firstn skipn app]. cbn [List.length]. intros Hr. split; [lia|].
      replace (Datatypes.length (shp t) - n)%nat with 0%nat by lia. reflexivity.
    - destruct (Nat.ltb_spec (n + 1) (List.length (shp t1))).
      + apply (Hmap _ Hc2). intros t t' Ht. unfold fold_batch, fold_axes in Ht. apply rbind_ok in Ht as (r & Ht & E'). apply ok_inj in E'. subst t'.
        apply rbind_ok in Ht as (u & Hu & E'). apply ok_inj in E'. subst r. cbn [fst]. unfold reshape in Hu. destruct (Nat.eqb _ _); [|discriminate]. apply ok_inj in Hu. subst u.
        split; [reflexivity|]. unfold rank. cbn [shp List.length]. rewrite skipn_length. intros Hr. split; [lia|reflexivity].
      + apply ok_inj in Hc2. subst c2. clear. induction (pc_items c1) as [|v l IH]; constructor; auto. apply pv_rel_refl. intros t. split; [reflexivity|].
        unfold rank. intros Hr. split; [lia|]. rewrite Hr. replace (n + 1 - n)%nat with 1%nat by lia.
        destruct (shp t) as [|b s]; [cbn in Hr; lia|]. cbn. f_equal. unfold prodl. cbn. lia. }
  rewrite Ec in F1. split; [exact Hh|]. split; [exact Hl|]. split; [reflexivity|]. split; [exact Hd|]. split.
  - rewrite Ei1 in F1. inversion F1 as [|? ? ? ? A _]; subst. cbn in A. destruct A as [_ A]. apply A. exact Hge.
  - pose proof (F2_comp _ _ _ _ _ F1 F2) as F. eapply F2_impl; [|exact F]. cbv beta. intros v v'' (v' & A & B).
    pose proof (pv_rel_comp _ _ _ _ _ A B) as D.
    assert (Hi : forall t t'', (exists t', R1 t t' /\ R2 t' t'') -> pre_rel axes n t t'').
    { intros t t'' (t' & [T1 A1] & [T2 A2]). split; [congruence|]. intros Hr. destruct (A2 Hr) as [Hn' Hs]. destruct (A1 Hn') as [Hax Hs1]. split; [exact Hax|].
      rewrite Hs. unfold folded.
      assert (Hrl : rank t' = (List.length (fsz (naxes axes t) (shp t)) + n)%nat).
      { unfold rank. rewrite Hs1, app_length. f_equal. rewrite gather_length. unfold naxes. rewrite map_length. exact Hl. }
      rewrite Hrl, Nat.add_sub, Hs1. rewrite firstn_app, Nat.sub_diag, firstn_all, firstn_O, app_nil_r.
      rewrite skipn_app, Nat.sub_diag, skipn_all. reflexivity. }
    clear - D Hi. destruct v, v''; cbn in *; auto; eapply F2_impl; try exact D; [apply Hi|]. intros kv kv' [E1 E2]. auto.
Qed.

(** * dtype check *)
(** every tensor the tree map visits *)
Definition pv_all (P : tensor K -> Prop) (v : pyval K) : Prop :=
  match v with PT t => P t | PTup l => Forall P (firstn 3 l) | PDict d => Forall (fun kv => P (snd kv)) d | POther => True end.
Lemma map_element_all f (v v' : pyval K) : map_element f v = Ok v' -> pv_all (fun t => exists t', f t = Ok t') v.
Proof.
  intros H. destruct v as [t|l|d|]; cbn [map_element pv_all] in *; auto.
  - apply rbind_ok in H as (u & Hu & _). eauto.
  - destruct l as [|x1 [|x2 [|x3 l]]]; try discriminate.
    + apply rbind_ok in H as (? & _ & H). discriminate.
    + apply rbind_ok in H as (? & _ & H). apply rbind_ok in H as (? & _ & H). discriminate.
    + apply rbind_ok in H as (y1 & H1 & H). apply rbind_ok in H as (y2 & H2 & H). apply rbind_ok in H as (y3 & H3 & H).
      cbn [firstn]. constructor; [eauto|]. constructor; [eauto|]. constructor; [eauto|constructor].
  - apply rbind_ok in H as (d' & Hd & _). unfold map_dict in Hd. apply rmap_inv in Hd.
    clear v'. induction Hd as [|kv kv' d d' E Hd IH]; constructor; auto. apply rbind_ok in E as (t' & Ht & _). eauto.
Qed.
Lemma tree_map_all (c c' : pycoeffs K) f : coeff_tree_map c f = Ok c' -> Forall (pv_all (fun t => exists t', f t = Ok t')) (pc_items c).
Proof.
  unfold coeff_tree_map. destruct (pc_items c) as [|[t0| | |] rest]; try discriminate. intros H.
  apply rbind_ok in H as (a & Ha & H). apply rbind_ok in H as (res & Hres & _). constructor; [cbn; eauto|]. apply rmap_inv in Hres.
  clear - Hres. induction Hres as [|v v' l l' E _ IH]; constructor; auto. eapply map_element_all. exact E.
Qed.
Lemma pv_all_and (P Q R : tensor K -> Prop) v : (forall t, P t -> Q t -> R t) -> pv_all P v -> pv_all Q v -> pv_all R v.
Proof.
  intros H. destruct v as [t|l|d|]; cbn; auto; rewrite !Forall_forall; intros A B z Hz; apply H; auto.
Qed.
Lemma check_tags (c : pycoeffs K) g t rest : check_same_device_dtype c = Ok g -> pc_items c = PT t :: rest ->
  g = ttag t /\ Forall (pv_all (fun u => ttag u = ttag t)) rest.
Proof.
  unfold check_same_device_dtype. intros H Hc. rewrite Hc in H. cbn [check_if_tensor rbind] in H.
  apply rbind_ok in H as (c1 & H1 & H). apply rbind_ok in H as (c2 & H2 & H). apply ok_inj in H. split; [congruence|].
  apply tree_map_all in H1. apply tree_map_all in H2. rewrite Hc in H1, H2. apply Forall_inv_tail in H1, H2. clear Hc H.
  rewrite Forall_forall in *. intros v Hv. refine (pv_all_and _ _ _ v _ (H1 v Hv) (H2 v Hv)). cbv beta. clear. intros u (u1 & E1) (u2 & E2).
  unfold check_same_device in E1. destruct (device_eqb _ _) eqn:E1'; [|discriminate]. apply device_eqb_true in E1'.
  unfold check_same_dtype in E2. destruct (dtype_eqb _ _) eqn:E2'; [|discriminate]. apply dtype_eqb_true in E2'.
  unfold tdevice, tdtype in *. destruct (ttag u), (ttag t); cbn in *; congruence.
Qed.

(** * one synthesis step: only the shapes *)
Lemma stack_inv d t ts st : stack d (t :: ts) = Ok st -> Forall (fun u => shp u = shp t) ts /\ shp st = insertn d (S (List.length ts)) (shp t).
Proof.
  unfold stack. destruct (forallb _ _) eqn:E; [|discriminate]. intros H. apply ok_inj in H. subst st. split; [|reflexivity].
  rewrite forallb_forall in E. apply Forall_forall. intros u Hu. apply list_eqb_spec. apply E. cbn. auto.
Qed.
Lemma convT_inv st filt ct s C L D : (1 <= C)%nat -> shp st = insertn 1 C s -> shp filt = C :: 1 :: repeat L D -> (1 <= D)%nat ->
  conv_transpose_nd (K := K) 2 1 0 1 st filt = Ok ct ->
  exists b ks, s = b :: ks /\ List.length ks = D /\ Forall (fun k => 1 <= k)%nat ks /\ shp ct = b :: 1%nat :: map (fun k => (k - 1) * 2 + L)%nat ks.
Proof.
  intros HC Hs Hf HD H. unfold conv_transpose_nd in H. rewrite Hs, Hf in H.
  destruct s as [|b ks]; cbn [insertn firstn skipn app] in H; [discriminate|].
  match type of H with (if ?c then _ else _) = _ => destruct c eqn:E; [|discriminate] end.
  apply andb_true_iff in E as [E E5]. apply andb_true_iff in E as [E E4]. apply andb_true_iff in E as [E E3]. apply andb_true_iff in E as [E1 E2].
  apply Nat.eqb_eq in E1. rewrite repeat_length in E1. exists b, ks. split; [reflexivity|]. split; [exact E1|].
  apply ok_inj in H. subst ct. cbn [shp tmake].
  assert (G : Forall (fun k => 1 <= k)%nat ks /\ map2 (fun n k => convt_out n k 2 1 0) ks (repeat L D) = map (fun k => (k - 1) * 2 + L)%nat ks).
  { clear - E1 E5. revert D E1 E5. induction ks as [|k ks IH]; intros D E1 E5; [split; [constructor|destruct D; reflexivity]|].
    destruct D as [|D]; [discriminate|]. cbn [repeat map2 forallb] in E5. apply andb_true_iff in E5 as [E5 E6].
    apply andb_true_iff in E5 as [E5 _]. apply andb_true_iff in E5 as [E7 E8]. apply Nat.ltb_lt in E7, E8.
    destruct (IH D) as [I1 I2]; [cbn in E1; lia|exact E6|]. split; [constructor; [lia|exact I1]|]. cbn [repeat map2 map]. rewrite I2. f_equal.
    unfold convt_out. lia. }
  split; [apply G|]. rewrite (proj2 G). reflexivity.
Qed.
Lemma shp_crop_last t i p q : (1 <= i)%nat -> (i <= rank t)%nat -> shp (crop_last t i p q) = updn (rank t - i) (nth (rank t - i) (shp t) 0 - p - q)%nat (shp t).
Proof.
  intros Hi Hr. unfold crop_last.
  assert (H1 : shp (if Nat.ltb 0 p then slice_from t (rank t - i) p else t) = updn (rank t - i) (nth (rank t - i) (shp t) 0 - p)%nat (shp t)).
  { destruct (Nat.ltb_spec 0 p); [reflexivity|]. replace p with 0%nat by lia. rewrite Nat.sub_0_r. symmetry. apply updn_same. }
  set (t1 := if Nat.ltb 0 p then _ else t) in *.
  assert (Hr1 : rank t1 = rank t) by (unfold rank; rewrite H1, updn_length; reflexivity). rewrite Hr1.
  assert (Hlt : (rank t - i < List.length (shp t))%nat) by (change (List.length (shp t)) with (rank t); lia).
  destruct (Nat.ltb_spec 0 q).
  - unfold slice_dropend, narrow. rewrite shp_make, H1, updn_updn, nth_updn_eq by exact Hlt. reflexivity.
  - replace q with 0%nat by lia. rewrite Nat.sub_0_r. exact H1.
Qed.
Lemma adjust_out L k nx r : (2 <= L)%nat -> (1 <= k)%nat -> adjust_padding ((k - 1) * 2 + L) nx (L - 2) (L - 2) = Ok r ->
  (nx + L = 2 * k + 2 \/ nx + L = 2 * k + 1)%nat /\ ((k - 1) * 2 + L - snd r - fst r)%nat = nx.
Proof.
  intros HL Hk H. pose proof (adjust_inv _ _ _ _ HL Hk H) as Hf. split; [exact Hf|].
  destruct (adjust_fits L k nx HL Hk Hf) as (pr & E & En). rewrite E in H. apply ok_inj in H. subst r. exact En.
Qed.

Lemma waverec2_step_inv filt L lo d1 d2 d3 next r : shp filt = [4; 1; L; L]%nat -> (2 <= L)%nat ->
  waverec2_step filt L lo d1 d2 d3 next = Ok r ->
  exists b ks outs, shp lo = b :: ks /\ List.length ks = 2%nat /\ Forall (fun d => shp d = shp lo) [d1; d2; d3] /\ Forall (fun k => 1 <= k)%nat ks /\
    shp r = b :: outs /\ fitsN L ks (option_map (fun nx => [shape_last nx 2; shape_last nx 1]) next) outs.
Proof.
  intros Hf HL H. unfold waverec2_step in H. apply rbind_ok in H as (st & Hst & H). apply rbind_ok in H as (ct & Hct & H).
  apply stack_inv in Hst as [Hsh Hst].
  edestruct (convT_inv st filt ct (shp lo) 4 L 2) as (b & ks & Hlo & Hlk & Hk & Hsc); [lia|exact Hst|exact Hf|lia|exact Hct|].
  destruct ks as [|k1 [|k2 [|]]]; try discriminate. rewrite pad_value in H by exact HL.
  assert (Hq : shp (squeeze ct 1) = [b; (k1 - 1) * 2 + L; (k2 - 1) * 2 + L]%nat) by (unfold squeeze; rewrite Hsc; reflexivity).
  set (q := squeeze ct 1) in *. assert (Hrq : rank q = 3%nat) by (unfold rank; rewrite Hq; reflexivity).
  inversion Hk as [|? ? Hk1 Hk']; subst. apply Forall_inv in Hk' as Hk2.
  apply rbind_ok in H as ([[padr padl] [padb padt]] & Hps & H). apply ok_inj in H.
  set (t1 := crop_last q 2 padt padb) in *.
  assert (H1 : shp t1 = [b; (k1 - 1) * 2 + L - padt - padb; (k2 - 1) * 2 + L]%nat).
  { unfold t1. rewrite shp_crop_last by (rewrite ?Hrq; lia). rewrite Hrq, Hq. reflexivity. }
  assert (Hr1 : rank t1 = 3%nat) by (unfold rank; rewrite H1; reflexivity).
  assert (H2 : shp r = [b; (k1 - 1) * 2 + L - padt - padb; (k2 - 1) * 2 + L - padl - padr]%nat).
  { subst r. rewrite shp_crop_last by (rewrite ?Hr1; lia). rewrite Hr1, H1. reflexivity. }
  eexists b, [k1; k2], _. split; [exact Hlo|]. split; [reflexivity|]. split; [exact Hsh|]. split; [exact Hk|]. split; [exact H2|].
  destruct next as [nx|]; cbn [fitsN option_map].
  - apply rbind_ok in Hps as (a & Ea & Hps). apply rbind_ok in Hps as (b' & Eb & Hps). apply ok_inj in Hps. injection Hps as -> ->.
    change (dim_last q 1) with (nth (rank q - 1) (shp q) 0%nat) in Ea. change (dim_last q 2) with (nth (rank q - 2) (shp q) 0%nat) in Eb.
    rewrite Hrq, Hq in Ea, Eb. cbn [nth Nat.sub] in Ea, Eb.
    apply adjust_out in Ea as [A1 A2]; [|exact HL|exact Hk2]. apply adjust_out in Eb as [B1 B2]; [|exact HL|exact Hk1]. cbn [fst snd] in *.
    rewrite A2, B2. split; [reflexivity|]. repeat (apply Forall2_cons; [assumption|]). apply Forall2_nil.
  - apply ok_inj in Hps. injection Hps as <- <- <- <-. cbn [map]. apply f_equal2; [lia|]. apply f_equal2; [lia|reflexivity].
Qed.

Lemma waverec3_step_inv filt L lo d next r : shp filt = [8; 1; L; L; L]%nat -> (2 <= L)%nat ->
  waverec3_step filt L lo d next = Ok r ->
  exists ds b ks outs, rmap (dict_get d) keys3 = Ok ds /\ shp lo = b :: ks /\ List.length ks = 3%nat /\ Forall (fun d => shp d = shp lo) ds /\ Forall (fun k => 1 <= k)%nat ks /\
    shp r = b :: outs /\ fitsN L ks (option_map (fun nx => [shape_last nx 3; shape_last nx 2; shape_last nx 1]) next) outs.
Proof.
  intros Hf HL H. unfold waverec3_step in H. apply rbind_ok in H as (ds & Hds & H). exists ds.
  assert (Hl7 : List.length ds = 7%nat) by (apply rmap_inv, F2_len in Hds; symmetry; exact Hds).
  apply rbind_ok in H as (st & Hst & H). apply rbind_ok in H as (ct & Hct & H).
  apply stack_inv in Hst as [Hsh Hst]. rewrite Hl7 in Hst.
  edestruct (convT_inv st filt ct (shp lo) 8 L 3) as (b & ks & Hlo & Hlk & Hk & Hsc); [lia|exact Hst|exact Hf|lia|exact Hct|].
  destruct ks as [|k1 [|k2 [|k3 [|]]]]; try discriminate. rewrite pad_value in H by exact HL.
  assert (Hq : shp (squeeze ct 1) = [b; (k1 - 1) * 2 + L; (k2 - 1) * 2 + L; (k3 - 1) * 2 + L]%nat) by (unfold squeeze; rewrite Hsc; reflexivity).
  set (q := squeeze ct 1) in *. assert (Hrq : rank q = 4%nat) by (unfold rank; rewrite Hq; reflexivity).
  inversion Hk as [|? ? Hk1 Hk']; subst. inversion Hk' as [|? ? Hk2 Hk'']; subst. apply Forall_inv in Hk'' as Hk3.
  apply rbind_ok in H as ([[[padr padl] [padb padt]] [padba padfr]] & Hps & H). apply ok_inj in H.
  set (t1 := crop_last q 2 padt padb) in *.
  assert (H1 : shp t1 = [b; (k1 - 1) * 2 + L; (k2 - 1) * 2 + L - padt - padb; (k3 - 1) * 2 + L]%nat).
  { unfold t1. rewrite shp_crop_last by (rewrite ?Hrq; lia). rewrite Hrq, Hq. reflexivity. }
  assert (Hr1 : rank t1 = 4%nat) by (unfold rank; rewrite H1; reflexivity).
  set (t2 := crop_last t1 1 padl padr) in *.
  assert (H2 : shp t2 = [b; (k1 - 1) * 2 + L; (k2 - 1) * 2 + L - padt - padb; (k3 - 1) * 2 + L - padl - padr]%nat).
  { unfold t2. rewrite shp_crop_last by (rewrite ?Hr1; lia). rewrite Hr1, H1. reflexivity. }
  assert (Hr2 : rank t2 = 4%nat) by (unfold rank; rewrite H2; reflexivity).
  assert (H3 : shp r = [b; (k1 - 1) * 2 + L - padfr - padba; (k2 - 1) * 2 + L - padt - padb; (k3 - 1) * 2 + L - padl - padr]%nat).
  { subst r. rewrite shp_crop_last by (rewrite ?Hr2; lia). rewrite Hr2, H2. reflexivity. }
  eexists b, [k1; k2; k3], _. split; [exact Hds|]. split; [exact Hlo|]. split; [reflexivity|]. split; [exact Hsh|]. split; [exact Hk|]. split; [exact H3|].
  destruct next as [nx|]; cbn [fitsN option_map].
  - apply rbind_ok in Hps as (a & Ea & Hps). apply rbind_ok in Hps as (b' & Eb & Hps). apply rbind_ok in Hps as (c' & Ec & Hps). apply ok_inj in Hps. injection Hps as -> -> ->.
    change (dim_last q 1) with (nth (rank q - 1) (shp q) 0%nat) in Ea. change (dim_last q 2) with (nth (rank q - 2) (shp q) 0%nat) in Eb.
    change (dim_last q 3) with (nth (rank q - 3) (shp q) 0%nat) in Ec.
    rewrite Hrq, Hq in Ea, Eb, Ec. cbn [nth Nat.sub] in Ea, Eb, Ec.
    apply adjust_out in Ea as [A1 A2]; [|exact HL|exact Hk3]. apply adjust_out in Eb as [B1 B2]; [|exact HL|exact Hk2]. apply adjust_out in Ec as [C1 C2]; [|exact HL|exact Hk1]. cbn [fst snd] in *.
    rewrite A2, B2, C2. split; [reflexivity|]. repeat (apply Forall2_cons; [assumption|]). apply Forall2_nil.
  - apply ok_inj in Hps. injection Hps as <- <- <- <- <- <-. cbn [map]. apply f_equal2; [lia|]. apply f_equal2; [lia|]. apply f_equal2; [lia|reflexivity].
Qed.

(** * the loops.  [tls t]: the sizes of the transformed axes inside the transform *)
Definition tls (t : tensor K) : list nat := tl (shp t).
Lemma waverec2_loop_inv his : forall filt L lo r, shp filt = [4; 1; L; L]%nat -> (2 <= L)%nat -> waverec2_loop filt L lo his = Ok r -> his <> [] ->
  List.length (shp lo) = 3%nat /\ exists b levels, his = levels2 levels /\ Forall (fun ds => List.length ds = 3%nat /\ Forall (fun d => rank d = 3%nat /\ shp d = b :: tls (hd lo ds)) ds) levels /\ hd 0%nat (shp lo) = b /\
    sizes_fit L (tls lo) (map (fun ds => tls (hd lo ds)) levels).
Proof.
  induction his as [|v his IH]; intros filt L lo r Hf HL H Hne; [congruence|]. cbn [waverec2_loop] in H.
  destruct v as [|[|d1 [|d2 [|d3 [|]]]]| |]; try discriminate. destruct (forallb _ _); [|discriminate].
  apply rbind_ok in H as (next & Hnext & H). apply rbind_ok in H as (r1 & H1 & H).
  destruct (waverec2_step_inv _ _ _ _ _ _ _ _ Hf HL H1) as (b & ks & outs & Hlo & Hlk & Hds & Hk & Hr1 & Hfit).
  split; [rewrite Hlo; cbn; rewrite Hlk; reflexivity|]. exists b.
  inversion Hds as [|? ? E1 Hds']; subst. inversion Hds' as [|? ? E2 Hds'']; subst. inversion Hds'' as [|? ? E3 _]; subst.
  assert (Hlev : Datatypes.length [d1; d2; d3] = 3%nat /\ Forall (fun d => rank d = 3%nat /\ shp d = b :: tls (hd lo [d1; d2; d3])) [d1; d2; d3]).
  { split; [reflexivity|]. unfold tls, rank. cbn [hd]. rewrite E1. rewrite Hlo in *. cbn [tl]. repeat (apply Forall_cons; [split; [|assumption]; match goal with E : shp ?d = _ |- List.length (shp ?d) = _ => rewrite E; cbn; rewrite Hlk; reflexivity end|]). constructor. }
  destruct his as [|v his].
  - exists [[d1; d2; d3]]. split; [reflexivity|]. split; [constructor; [exact Hlev|constructor]|]. split; [rewrite Hlo; reflexivity|].
    cbn [map sizes_fit hd]. unfold tls. rewrite E1, Hlo. cbn [tl]. auto.
  - destruct (IH filt L r1 r Hf HL H ltac:(discriminate)) as (I1 & b2 & levels & Ehis & Ilev & Ib & Isz).
    destruct levels as [|ds levels]; [discriminate|]. exists ([d1; d2; d3] :: ds :: levels). split; [rewrite Ehis; reflexivity|].
    rewrite Hr1 in Ib. cbn [hd] in Ib. subst b2.
    assert (Hhd : hd lo ds = hd r1 ds) by (apply Forall_inv in Ilev as [Hl3 _]; destruct ds; [discriminate|reflexivity]).
    assert (Hind : forall ds, List.length ds = 3%nat -> hd lo ds = hd r1 ds) by (intros [|]; [discriminate|reflexivity]).
    split; [constructor; [exact Hlev|]; eapply Forall_impl; [|exact Ilev]; cbv beta; intros ds' [A B]; split; [exact A|]; rewrite Hind by exact A; exact B|].
    split; [rewrite Hlo; reflexivity|].
    assert (Hm : map (fun ds => tls (hd lo ds)) (ds :: levels) = map (fun ds => tls (hd r1 ds)) (ds :: levels)).
    { apply map_ext_in. intros ds' Hin. rewrite Forall_forall in Ilev. f_equal. apply Hind. apply Ilev. exact Hin. }
    cbn [map sizes_fit] in *. assert (Ht : tls lo = ks) by (unfold tls; rewrite Hlo; reflexivity). rewrite Ht. cbn [hd].
    split; [unfold tls; rewrite E1, Hlo; reflexivity|]. split; [exact Hk|].
    injection Hm as Hm1 Hm2. rewrite Hm1, Hm2. destruct Isz as (S1 & S2). rewrite S1. split; [|split; [reflexivity|exact S2]].
    destruct ds as [|e1 ds]; [apply Forall_inv in Ilev as [Hl3 _]; discriminate|]. cbn [levels2 map] in Ehis. injection Ehis as -> _. cbn [next_shape2 rbind] in Hnext. apply ok_inj in Hnext. subst next.
    cbn [option_map fitsN] in Hfit. destruct Hfit as [Ho Hfit]. unfold tls. rewrite Hr1. cbn [tl]. rewrite Ho. exact Hfit.
Qed.

Lemma waverec3_loop_inv his : forall filt L lo r, shp filt = [8; 1; L; L; L]%nat -> (2 <= L)%nat -> waverec3_loop filt L lo his = Ok r -> his <> [] ->
  List.length (shp lo) = 4%nat /\ exists b dicts, his = map PDict dicts /\
    Forall (fun d => List.length d = 7%nat /\ (exists ds, rmap (dict_get d) keys3 = Ok ds) /\ Forall (fun kv => rank (snd kv) = 4%nat /\ shp (snd kv) = b :: tls (snd (hd (""%string, lo) d))) d) dicts /\ hd 0%nat (shp lo) = b /\
    sizes_fit L (tls lo) (map (fun d => tls (snd (hd (""%string, lo) d))) dicts).
Proof.
  induction his as [|v his IH]; intros filt L lo r Hf HL H Hne; [congruence|]. cbn [waverec3_loop] in H.
  destruct v as [| |d|]; try discriminate. destruct (Nat.eqb_spec (List.length d) 7) as [H7|]; [|discriminate]. destruct (forallb _ _) eqn:Hall; [|discriminate].
  apply rbind_ok in H as (next & Hnext & H). apply rbind_ok in H as (r1 & H1 & H).
  destruct (waverec3_step_inv _ _ _ _ _ _ Hf HL H1) as (ds & b & ks & outs & Hds & Hlo & Hlk & Hsh & Hk & Hr1 & Hfit).
  split; [rewrite Hlo; cbn; rewrite Hlk; reflexivity|]. exists b.
  assert (Hall' : forall kv, In kv d -> shp (snd kv) = shp lo).
  { intros kv Hkv. rewrite forallb_forall in Hall. apply list_eqb_spec. apply Hall. exact Hkv. }
  assert (Hhd0 : shp (snd (hd (""%string, lo) d)) = shp lo) by (destruct d as [|kv d]; [discriminate|]; apply Hall'; left; reflexivity).
  assert (Hlev : List.length d = 7%nat /\ (exists ds, rmap (dict_get d) keys3 = Ok ds) /\ Forall (fun kv => rank (snd kv) = 4%nat /\ shp (snd kv) = b :: tls (snd (hd (""%string, lo) d))) d).
  { split; [exact H7|]. split; [eauto|]. unfold tls. rewrite Hhd0. apply Forall_forall. intros kv Hkv. unfold rank. rewrite (Hall' kv Hkv), Hlo. split; [cbn; rewrite Hlk; reflexivity|reflexivity]. }
  destruct his as [|v his].
  - exists [d]. split; [reflexivity|]. split; [constructor; [exact Hlev|constructor]|]. split; [rewrite Hlo; reflexivity|].
    cbn [map sizes_fit]. unfold tls. rewrite Hhd0, Hlo. cbn [tl]. auto.
  - destruct (IH filt L r1 r Hf HL H ltac:(discriminate)) as (I1 & b2 & dicts & Ehis & Ilev & Ib & Isz).
    destruct dicts as [|d' dicts]; [discriminate|]. exists (d :: d' :: dicts). split; [rewrite Ehis; reflexivity|].
    rewrite Hr1 in Ib. cbn [hd] in Ib. subst b2.
    assert (Hind : forall (d : list (string * tensor K)), List.length d = 7%nat -> hd (""%string, lo) d = hd (""%string, r1) d) by (intros [|]; [discriminate|reflexivity]).
    split; [constructor; [exact Hlev|]; eapply Forall_impl; [|exact Ilev]; cbv beta; intros ds' [A B]; split; [exact A|]; rewrite Hind by exact A; exact B|].
    split; [rewrite Hlo; reflexivity|].
    assert (Hm : map (fun d => tls (snd (hd (""%string, lo) d))) (d' :: dicts) = map (fun d => tls (snd (hd (""%string, r1) d))) (d' :: dicts)).
    { apply map_ext_in. intros ds' Hin. rewrite Forall_forall in Ilev. f_equal. f_equal. apply Hind. apply Ilev. exact Hin. }
    cbn [map sizes_fit] in *. assert (Ht : tls lo = ks) by (unfold tls; rewrite Hlo; reflexivity). rewrite Ht.
    split; [unfold tls; rewrite Hhd0, Hlo; reflexivity|]. split; [exact Hk|].
    injection Hm as Hm1 Hm2. rewrite Hm1, Hm2. destruct Isz as (S1 & S2). rewrite S1. split; [|split; [reflexivity|exact S2]].
    injection Ehis as -> _. cbn [next_shape3] in Hnext. apply rbind_ok in Hnext as (nx & Hnx & Hnext). apply rbind_ok in Hnx as (t' & Ht' & Hnx). apply ok_inj in Hnx. subst nx. apply ok_inj in Hnext. subst next.
    cbn [option_map fitsN] in Hfit. destruct Hfit as [Ho Hfit]. unfold tls. rewrite Hr1. cbn [tl]. rewrite Ho. exact Hfit.
Qed.

(** sizes of the transformed axes, and the number of signals, of a coefficient tensor *)
Definition asz (axes : list Z) t : list nat := gather (naxes axes t) 0%nat (shp t).
Definition bsz (axes : list Z) t : nat := prodl (fsz (naxes axes t) (shp t)).

(** everything waverec2 accepts; no assumption on the coefficients at all *)
Theorem waverec2_inv (c : pycoeffs K) w L h y : List.length (rec_lo w) = L -> List.length (rec_hi w) = L -> (2 <= L)%nat ->
  waverec2 c w h = Ok y ->
  exists axes lo tups, hint_axes h 2 = Some axes /\ List.length axes = 2%nat /\ pc_items c = PT lo :: map PTup tups /\
    is_dtype_supported (tdtype lo) = true /\ axes_ok (rank lo) axes /\
    Forall (fun l => (3 <= List.length l)%nat /\
      Forall (fun d => ttag d = ttag lo /\ axes_ok (rank d) axes /\ bsz axes d = bsz axes lo /\ asz axes d = asz axes (hd lo l)) (firstn 3 l)) tups /\
    sizes_fit L (asz axes lo) (map (fun l => asz axes (hd lo l)) tups).
Proof.
  intros H1 H2 HL H. unfold waverec2 in H. apply rbind_ok in H as ([c2 ds] & Hpp & H).
  apply rbind_ok in H as (g & Hg & H). cbn [get_filter_tensors] in H. apply rbind_ok in H as (filt & Hf & H).
  destruct (preprocess_rel c c2 2 h ds ltac:(lia) Hpp) as (axes & lo & rest & Hh & Hla & Hc & Hd & Hax & HF).
  exists axes, lo. destruct (pc_items c2) as [|[lo2| | |] his2] eqn:Ec2; try discriminate.
  apply rbind_ok in H as (r & Hloop & _). rewrite Hc in HF. inversion HF as [|? ? ? ? Hlo HF']; subst. cbn [pv_rel] in Hlo.
  destruct (check_tags c2 g lo2 his2 Hg Ec2) as [-> Htags].
  destruct (filt_nd 2 (rec_lo w) (rec_hi w) false (ttag lo2) (List.length (rec_lo w)) ltac:(lia) eq_refl H2) as (f & Hf1 & Hf2 & _).
  cbn [construct_nd_filt] in Hf1. rewrite Hf in Hf1. apply ok_inj in Hf1. subst f.
  change (dim_last (create_tensor (rec_lo w) false (ttag lo2)) 1) with (List.length (rec_lo w)) in Hloop.
  destruct his2 as [|v2 his2].
  { inversion HF'; subst. exists []. cbn. repeat (split; [assumption || reflexivity|]). split; [constructor|exact I]. }
  destruct (waverec2_loop_inv _ _ _ _ _ Hf2 HL Hloop ltac:(discriminate)) as (Hr2 & b & levels & Ehis & Hlev & Hb & Hfit).
  destruct Hlo as [Tlo Hlo]. destruct (Hlo Hr2) as [_ Hslo].
  assert (Hlo2 : tls lo2 = asz axes lo) by (unfold tls; rewrite Hslo; reflexivity).
  rewrite Ehis in HF', Htags. clear Ehis Hloop v2 his2 HF Ec2.
  assert (G : exists tups, rest = map PTup tups /\ Forall (fun l => (3 <= List.length l)%nat /\
      Forall (fun d => ttag d = ttag lo /\ axes_ok (rank d) axes /\ bsz axes d = bsz axes lo /\ asz axes d = asz axes (hd lo l)) (firstn 3 l)) tups /\
      map (fun l => asz axes (hd lo l)) tups = map (fun ds => tls (hd lo2 ds)) levels).
  { clear Hfit Hc. revert rest HF' Htags Hlev. induction levels as [|ds0 levels IH]; intros rest HF' Htags Hlev; inversion HF' as [|v v2 rest' levs' Hv HF'']; subst.
    - exists []. split; [reflexivity|]. split; [constructor|reflexivity].
    - inversion Htags as [|? ? Ht Htags']; subst. inversion Hlev as [|? ? [Hl3 Hsh] Hlev']; subst.
      destruct (IH _ HF'' Htags' Hlev') as (tups & -> & Ht' & Hm). destruct v as [|l| |]; cbn [pv_rel] in Hv; try contradiction. exists (l :: tups).
      split; [reflexivity|]. rewrite Hl3 in Hv. cbn [pv_all] in Ht. rewrite <- Hl3, firstn_all in Ht.
      assert (Hll : (3 <= List.length l)%nat) by (apply F2_len in Hv; rewrite firstn_length, Hl3 in Hv; lia).
      assert (Hal : Forall (fun d => ttag d = ttag lo /\ axes_ok (rank d) axes /\ bsz axes d = bsz axes lo /\ asz axes d = tls (hd lo2 ds0)) (firstn 3 l)).
      { clear - Hv Ht Hsh Tlo Hslo. set (q := tls (hd lo2 ds0)) in *. clearbody q.
        remember (firstn 3 l) as fl. clear Heqfl.
        induction Hv as [|d d2 fl' ds0 [Td Hd] Hv IH]; constructor; inversion Ht; inversion Hsh as [|? ? [Hr Hs] Hsh']; subst; auto.
        split; [congruence|]. destruct (Hd Hr) as [A B]. split; [exact A|]. rewrite Hs in B. unfold folded in B. injection B as B1 B2. unfold bsz, asz. split; [|symmetry; exact B2].
        rewrite <- B1, Hslo. reflexivity. }
      assert (Ehd : asz axes (hd lo l) = tls (hd lo2 ds0)).
      { destruct l as [|d l]; [cbn in Hll; lia|]. cbn [firstn] in Hal. apply Forall_inv in Hal. apply Hal. }
      split; [|cbn [map]; rewrite Ehd, Hm; reflexivity]. constructor; [|exact Ht']. rewrite Ehd. auto. }
  destruct G as (tups & -> & Ht & Hm). exists tups. repeat (split; [assumption || reflexivity|]). rewrite Hm, <- Hlo2. exact Hfit.
Qed.

Lemma dict_get_pres (R : tensor K -> tensor K -> Prop) (d d2 : list (string * tensor K)) k t2 : Forall2 (fun kv kv' => fst kv' = fst kv /\ R (snd kv) (snd kv')) d d2 ->
  dict_get d2 k = Ok t2 -> exists t, dict_get d k = Ok t /\ R t t2.
Proof.
  unfold dict_get. intros H. induction H as [|[k1 x1] [k2 x2] d d2 [E Hr] _ IH]; cbn [find fst snd] in *; [discriminate|].
  subst k2. destruct (String.eqb k1 k); [|exact IH]. intros E. apply ok_inj in E. subst t2. cbn in *. eauto.
Qed.
Definition dfirst lo (d : list (string * tensor K)) : tensor K := snd (hd (""%string, lo) d).

Theorem waverec3_inv (c : pycoeffs K) w L h y : List.length (rec_lo w) = L -> List.length (rec_hi w) = L -> (2 <= L)%nat ->
  waverec3 c w h = Ok y ->
  exists axes lo dicts, hint_axes h 3 = Some axes /\ List.length axes = 3%nat /\ pc_items c = PT lo :: map PDict dicts /\
    is_dtype_supported (tdtype lo) = true /\ axes_ok (rank lo) axes /\
    Forall (fun d => List.length d = 7%nat /\ (forall k, In k keys3 -> exists t, dict_get d k = Ok t) /\
      Forall (fun kv => ttag (snd kv) = ttag lo /\ axes_ok (rank (snd kv)) axes /\ bsz axes (snd kv) = bsz axes lo /\ asz axes (snd kv) = asz axes (dfirst lo d)) d) dicts /\
    sizes_fit L (asz axes lo) (map (fun d => asz axes (dfirst lo d)) dicts).
Proof.
  intros H1 H2 HL H. unfold waverec3 in H. apply rbind_ok in H as ([c2 ds] & Hpp & H).
  apply rbind_ok in H as (g & Hg & H). cbn [get_filter_tensors] in H. apply rbind_ok in H as (filt & Hf & H).
  destruct (preprocess_rel c c2 3 h ds ltac:(lia) Hpp) as (axes & lo & rest & Hh & Hla & Hc & Hd & Hax & HF).
  exists axes, lo. destruct (pc_items c2) as [|[lo2| | |] his2] eqn:Ec2; try discriminate.
  apply rbind_ok in H as (r & Hloop & _). rewrite Hc in HF. inversion HF as [|? ? ? ? Hlo HF']; subst. cbn [pv_rel] in Hlo.
  destruct (check_tags c2 g lo2 his2 Hg Ec2) as [-> Htags].
  destruct (filt_nd 3 (rec_lo w) (rec_hi w) false (ttag lo2) (List.length (rec_lo w)) ltac:(lia) eq_refl H2) as (f & Hf1 & Hf2 & _).
  cbn [construct_nd_filt] in Hf1. rewrite Hf in Hf1. apply ok_inj in Hf1. subst f.
  change (dim_last (create_tensor (rec_lo w) false (ttag lo2)) 1) with (List.length (rec_lo w)) in Hloop.
  destruct his2 as [|v2 his2].
  { inversion HF'; subst. exists []. cbn. repeat (split; [assumption || reflexivity|]). split; [constructor|exact I]. }
  destruct (waverec3_loop_inv _ _ _ _ _ Hf2 HL Hloop ltac:(discriminate)) as (Hr2 & b & dicts & Ehis & Hlev & Hb & Hfit).
  destruct Hlo as [Tlo Hlo]. destruct (Hlo Hr2) as [_ Hslo].
  assert (Hlo2 : tls lo2 = asz axes lo) by (unfold tls; rewrite Hslo; reflexivity).
  rewrite Ehis in HF', Htags. clear Ehis Hloop v2 his2 HF Ec2.
  assert (G : exists dicts0, rest = map PDict dicts0 /\ Forall (fun d => List.length d = 7%nat /\ (forall k, In k keys3 -> exists t, dict_get d k = Ok t) /\
      Forall (fun kv => ttag (snd kv) = ttag lo /\ axes_ok (rank (snd kv)) axes /\ bsz axes (snd kv) = bsz axes lo /\ asz axes (snd kv) = asz axes (dfirst lo d)) d) dicts0 /\
      map (fun d => asz axes (dfirst lo d)) dicts0 = map (fun d => tls (dfirst lo2 d)) dicts).
  { clear Hfit Hc. revert rest HF' Htags Hlev. induction dicts as [|d2 dicts IH]; intros rest HF' Htags Hlev; inversion HF' as [|v v2 rest' levs' Hv HF'']; subst.
    - exists []. split; [reflexivity|]. split; [constructor|reflexivity].
    - inversion Htags as [|? ? Ht Htags']; subst. inversion Hlev as [|? ? (Hl7 & (gs & Hgs) & Hsh) Hlev']; subst.
      destruct (IH _ HF'' Htags' Hlev') as (dicts0 & -> & Ht' & Hm). destruct v as [| |d|]; cbn [pv_rel] in Hv; try contradiction. exists (d :: dicts0).
      split; [reflexivity|]. cbn [pv_all] in Ht.
      assert (Hl7' : List.length d = 7%nat) by (apply F2_len in Hv; congruence).
      assert (Hkeys : forall k, In k keys3 -> exists t, dict_get d k = Ok t).
      { intros k Hk. apply rmap_inv in Hgs. assert (exists t2, dict_get d2 k = Ok t2) as (t2 & E).
        { clear - Hgs Hk. induction Hgs as [|a b l l' E _ IHg]; [contradiction|]. destruct Hk as [->|Hk]; [eauto|auto]. }
        destruct (dict_get_pres _ _ _ _ _ Hv E) as (t & Et & _). eauto. }
      assert (Hal : Forall (fun kv => ttag (snd kv) = ttag lo /\ axes_ok (rank (snd kv)) axes /\ bsz axes (snd kv) = bsz axes lo /\ asz axes (snd kv) = tls (dfirst lo2 d2)) d).
      { fold (dfirst lo2 d2) in Hsh. clear - Hv Ht Hsh Tlo Hslo. set (q := tls (dfirst lo2 d2)) in *. clearbody q.
        induction Hv as [|kv kv2 d d2 [_ [Td Hd]] Hv IH]; constructor; inversion Ht; inversion Hsh as [|? ? [Hr Hs] Hsh']; subst; auto.
        split; [congruence|]. destruct (Hd Hr) as [A B]. split; [exact A|]. rewrite Hs in B. unfold folded in B. injection B as B1 B2. unfold bsz, asz. split; [|symmetry; exact B2].
        rewrite <- B1, Hslo. reflexivity. }
      assert (Ehd : asz axes (dfirst lo d) = tls (dfirst lo2 d2)).
      { destruct d as [|kv d]; [cbn in Hl7'; lia|]. apply Forall_inv in Hal. apply Hal. }
      split; [|cbn [map]; rewrite Ehd, Hm; reflexivity]. constructor; [|exact Ht']. rewrite Ehd. auto. }
  destruct G as (dicts0 & -> & Ht & Hm). exists dicts0. repeat (split; [assumption || reflexivity|]). rewrite Hm, <- Hlo2. exact Hfit.
Qed.
End RNI.
