(** Pre/postprocessing of tensors and coefficient containers: index-level facts. *)
From Coq Require Import List Arith ZArith Lia Bool Permutation.
From Verif Require Import Base Sums Tensor TensorFacts Util Perm.
Import ListNotations.

(** * rmap *)
Lemma rmap_ok {A B} (f : A -> result B) (g : A -> B) l :
  (forall a, In a l -> f a = Ok (g a)) -> rmap f l = Ok (map g l).
Proof.
  induction l as [|a l IH]; intros H; cbn; [reflexivity|].
  rewrite H by (left; reflexivity). cbn. rewrite IH; [reflexivity|]. intros; apply H; right; assumption.
Qed.

Lemma rmap_inv {A B} (f : A -> result B) l l' :
  rmap f l = Ok l' -> Forall2 (fun a b => f a = Ok b) l l'.
Proof.
  revert l'; induction l as [|a l IH]; intros l' H; cbn in H; [injection H as <-; constructor|].
  destruct (f a) as [b|] eqn:E; [|discriminate]. cbn in H.
  destruct (rmap f l) as [bs|] eqn:E2; [|discriminate]. injection H as <-. constructor; auto.
Qed.

(** * axes *)
Definition norm_axis (r : nat) (a : Z) : nat := Z.to_nat (if (a <? 0)%Z then (a + Z.of_nat r)%Z else a).
Definition axes_ok (r : nat) (axes : list Z) : Prop :=
  Forall (fun a => (- Z.of_nat r <= a < Z.of_nat r)%Z) axes /\ NoDup (map (norm_axis r) axes).
(** the axes a hint denotes for an [ndim]-dimensional transform, when it is accepted *)
Definition hint_axes (h : axishint) (ndim : nat) : option (list Z) :=
  match h with
  | AxNone => if Nat.ltb ndim 1 then None else Some (map (fun i => (Z.of_nat i - Z.of_nat ndim)%Z) (seq 0 ndim))
  | AxInt a => if Nat.eqb ndim 1 then Some [a] else None
  | AxSeq l => if Nat.eqb (length l) ndim then Some l else None
  end.

Lemma norm_axis_lt r a : (- Z.of_nat r <= a < Z.of_nat r)%Z -> norm_axis r a < r.
Proof. intros H. unfold norm_axis. destruct (Z.ltb_spec a 0); lia. Qed.

Lemma axes_ok_lt r axes d : axes_ok r axes -> In d (map (norm_axis r) axes) -> d < r.
Proof.
  intros [H _] Hd. apply in_map_iff in Hd as (a & <- & Ha). rewrite Forall_forall in H.
  apply norm_axis_lt. auto.
Qed.

Lemma axes_ok_perm r axes : axes_ok r axes ->
  is_perm (front_of (map (norm_axis r) axes) r ++ map (norm_axis r) axes) r.
Proof. intros H. apply front_perm; [apply H|]. intros d. apply axes_ok_lt. exact H. Qed.

Lemma axes_ok_length r axes : axes_ok r axes -> length axes <= r.
Proof.
  intros H. pose proof (is_perm_length _ _ (axes_ok_perm _ _ H)) as Hl.
  rewrite app_length, map_length in Hl. lia.
Qed.

Lemma nodupz_spec l : nodupz l = true <-> NoDup l.
Proof.
  induction l as [|a l IH]; cbn; [split; [constructor|reflexivity]|].
  rewrite andb_true_iff, negb_true_iff, IH.
  assert (Hm : existsb (Z.eqb a) l = true <-> In a l).
  { rewrite existsb_exists. split.
    - intros (y & Hy & E). apply Z.eqb_eq in E. congruence.
    - intros H. exists a. split; [exact H|apply Z.eqb_refl]. }
  split.
  - intros [H1 H2]. constructor; [|exact H2]. rewrite <- Hm. congruence.
  - intros H. inversion H; subst. split; [|assumption].
    destruct (existsb (Z.eqb a) l); [|reflexivity]. exfalso. tauto.
Qed.

Lemma axes_ok_check r axes : axes_ok r axes -> check_axes_argument axes = Ok tt.
Proof.
  intros [_ H]. unfold check_axes_argument. replace (nodupz axes) with true; [reflexivity|].
  symmetry. apply nodupz_spec. apply NoDup_map_inv in H. exact H.
Qed.

Lemma transpose_order_ok r axes : axes_ok r axes ->
  get_transpose_order axes r =
  (map Z.of_nat (front_of (map (norm_axis r) axes) r), map Z.of_nat (map (norm_axis r) axes)).
Proof.
  intros [H _]. unfold get_transpose_order.
  assert (E : map (fun a => if (a <? 0)%Z then (a + Z.of_nat r)%Z else a) axes
              = map Z.of_nat (map (norm_axis r) axes)).
  { rewrite map_map. apply map_ext_in. intros a Ha. rewrite Forall_forall in H. specialize (H a Ha).
    unfold norm_axis. destruct (Z.ltb_spec a 0); lia. }
  rewrite E. f_equal. unfold front_of. generalize (map (norm_axis r) axes) as nax. intros nax.
  generalize (seq 0 r) as l. induction l as [|d l IH]; cbn; [reflexivity|].
  replace (existsb (Z.eqb (Z.of_nat d)) (map Z.of_nat nax)) with (memn d nax).
  - destruct (memn d nax); cbn; rewrite IH; reflexivity.
  - unfold memn. clear. induction nax as [|b l IH]; cbn; [reflexivity|]. rewrite IH. f_equal.
    destruct (Nat.eqb_spec d b), (Z.eqb_spec (Z.of_nat d) (Z.of_nat b)); auto; lia.
Qed.

Lemma ensure_axes_ok h ndim axes r : hint_axes h ndim = Some axes -> axes_ok r axes -> ensure_axes h ndim = Ok axes.
Proof.
  intros Hh Ho. destruct h as [|a|l]; unfold hint_axes in Hh; unfold ensure_axes.
  - unfold get_default_axes. destruct (Nat.ltb ndim 1); [discriminate|]. congruence.
  - destruct (Nat.eqb ndim 1); [|discriminate]. congruence.
  - destruct (Nat.eqb (length l) ndim); [|discriminate]. injection Hh as ->.
    rewrite (axes_ok_check _ _ Ho). reflexivity.
Qed.

Lemma list_eqb_Z_spec l l' : list_eqb Z.eqb l l' = true <-> l = l'.
Proof.
  revert l'; induction l as [|a l IH]; intros [|b l']; cbn; split; intros H; try congruence; try discriminate.
  - apply andb_true_iff in H as [H1 H2]. apply Z.eqb_eq in H1. apply IH in H2. congruence.
  - injection H as -> ->. rewrite Z.eqb_refl. cbn. apply IH. reflexivity.
Qed.

(** the default axes give the identity permutation *)
Definition default_axes (ndim : nat) : list Z := map (fun i => (Z.of_nat i - Z.of_nat ndim)%Z) (seq 0 ndim).

Lemma default_axes_norm r ndim : ndim <= r -> map (norm_axis r) (default_axes ndim) = seq (r - ndim) ndim.
Proof.
  intros H. unfold default_axes. rewrite map_map.
  apply (nth_ext_len _ _ 0); [rewrite map_length, !seq_length; reflexivity|].
  intros i Hi. rewrite map_length, seq_length in Hi. rewrite nth_map_seq by exact Hi.
  rewrite seq_nth by exact Hi. unfold norm_axis. destruct (Z.ltb_spec (Z.of_nat i - Z.of_nat ndim) 0); lia.
Qed.

Lemma filter_all {A} (f : A -> bool) l : (forall a, In a l -> f a = true) -> filter f l = l.
Proof.
  induction l as [|a l IH]; intros H; cbn; [reflexivity|].
  rewrite H by (left; reflexivity). rewrite IH; auto. intros; apply H; right; assumption.
Qed.
Lemma filter_none {A} (f : A -> bool) l : (forall a, In a l -> f a = false) -> filter f l = [].
Proof.
  induction l as [|a l IH]; intros H; cbn; [reflexivity|].
  rewrite H by (left; reflexivity). apply IH. intros; apply H; right; assumption.
Qed.

Lemma default_front r ndim : ndim <= r -> front_of (seq (r - ndim) ndim) r = seq 0 (r - ndim).
Proof.
  intros H. unfold front_of. assert (E : seq 0 r = seq 0 (r - ndim) ++ seq (r - ndim) ndim)
    by (change (seq (r - ndim) ndim) with (seq (0 + (r - ndim)) ndim); rewrite <- seq_app; f_equal; lia).
  rewrite E, filter_app. clear E. rewrite filter_all, filter_none; [apply app_nil_r| |].
  - intros a Ha. apply negb_false_iff, memn_spec. exact Ha.
  - intros a Ha. apply in_seq in Ha. apply negb_true_iff.
    destruct (memn a (seq (r - ndim) ndim)) eqn:E; [|reflexivity].
    apply memn_spec, in_seq in E. lia.
Qed.

Lemma default_axes_ok r ndim : ndim <= r -> axes_ok r (default_axes ndim).
Proof.
  intros H. split.
  - apply Forall_forall. intros a Ha. apply in_map_iff in Ha as (i & <- & Hi). apply in_seq in Hi. lia.
  - rewrite default_axes_norm by exact H. apply seq_NoDup.
Qed.

(** * coefficient containers *)
Section C.
Context {K : CRing}.
Implicit Types t u : tensor K.

Definition pv_tensors (v : pyval K) : list (tensor K) :=
  match v with PT t => [t] | PTup l => l | PDict d => map snd d | POther => [] end.
Definition pv_map (g : tensor K -> tensor K) (v : pyval K) : pyval K :=
  match v with
  | PT t => PT (g t) | PTup l => PTup (map g l)
  | PDict d => PDict (map (fun kv => (fst kv, g (snd kv))) d) | POther => POther
  end.
Definition pv_ok (v : pyval K) : Prop :=
  match v with PTup l => length l = 3 | POther => False | _ => True end.
Definition kind_ok (is_list : bool) (rest : list (pyval K)) : Prop :=
  match rest with [] => True | PT _ :: _ => is_list = true | _ => is_list = false end.
Definition pc_regular (c : pycoeffs K) : Prop :=
  match pc_items c with
  | PT _ :: rest => Forall pv_ok rest /\ kind_ok (pc_is_list c) rest
  | _ => False
  end.
Definition pc_tensors (c : pycoeffs K) : list (tensor K) := flat_map pv_tensors (pc_items c).
Definition pc_map (g : tensor K -> tensor K) (c : pycoeffs K) : pycoeffs K :=
  mkPC (pc_is_list c) (map (pv_map g) (pc_items c)).

Lemma map_element_ok f g v : pv_ok v -> (forall t, In t (pv_tensors v) -> f t = Ok (g t)) ->
  map_element f v = Ok (pv_map g v).
Proof.
  intros Hv H. destruct v as [t|l|d|]; cbn in *.
  - rewrite H by auto. reflexivity.
  - destruct l as [|a [|b [|c [|e l]]]]; cbn in Hv; try lia.
    rewrite (H a) by (cbn; auto). cbn [rbind]. rewrite (H b) by (cbn; auto). cbn [rbind].
    rewrite (H c) by (cbn; auto). reflexivity.
  - unfold map_dict. rewrite (rmap_ok _ (fun kv => (fst kv, g (snd kv)))); [reflexivity|].
    intros kv Hkv. rewrite H; [reflexivity|]. apply in_map. exact Hkv.
  - destruct Hv.
Qed.

Lemma tree_map_ok c f g : pc_regular c -> (forall t, In t (pc_tensors c) -> f t = Ok (g t)) ->
  coeff_tree_map c f = Ok (pc_map g c).
Proof.
  unfold pc_regular, coeff_tree_map, pc_map, pc_tensors. destruct c as [il items]. cbn [pc_items pc_is_list].
  destruct items as [|[t| | |] rest]; try tauto. intros [Ho Hk] H. cbn [flat_map] in H.
  rewrite H by (cbn; auto). cbn [rbind].
  rewrite (rmap_ok _ (pv_map g)).
  - cbn [rbind map pv_map]. destruct rest as [|v rest]; [reflexivity|]. cbn [map].
    destruct v; cbn in *; subst; try reflexivity.
  - intros v Hv. apply map_element_ok.
    + rewrite Forall_forall in Ho. auto.
    + intros u Hu. apply H. apply in_or_app. right. apply in_flat_map. eauto.
Qed.

Lemma pc_map_regular c g : pc_regular c -> pc_regular (pc_map g c).
Proof.
  unfold pc_regular, pc_map. destruct c as [il items]. cbn.
  destruct items as [|[t| | |] rest]; cbn; try tauto. intros [Ho Hk]. split.
  - apply Forall_map. eapply Forall_impl; [|exact Ho]. intros [?|?|?|]; cbn; auto. rewrite map_length. auto.
  - destruct rest as [|[?|?|?|] rest]; cbn in *; auto.
Qed.

Lemma pc_map_tensors c g : pc_tensors (pc_map g c) = map g (pc_tensors c).
Proof.
  unfold pc_tensors, pc_map. cbn. induction (pc_items c) as [|v l IH]; cbn; [reflexivity|].
  rewrite IH, map_app. f_equal. destruct v; cbn; try reflexivity. rewrite !map_map. reflexivity.
Qed.

Lemma pc_map_map c g h : pc_map g (pc_map h c) = pc_map (fun t => g (h t)) c.
Proof.
  unfold pc_map. cbn. f_equal. rewrite map_map. apply map_ext. intros [?|?|?|]; cbn; auto; rewrite map_map; reflexivity.
Qed.

Lemma pc_map_ext c g h : (forall t, In t (pc_tensors c) -> g t = h t) -> pc_map g c = pc_map h c.
Proof.
  intros H. unfold pc_map. f_equal. apply map_ext_in. intros v Hv.
  assert (H' : forall t, In t (pv_tensors v) -> g t = h t).
  { intros t Ht. apply H. apply in_flat_map. eauto. }
  destruct v as [t|l|d|]; cbn in *; f_equal.
  - apply H'. auto.
  - apply map_ext_in. auto.
  - apply map_ext_in. intros kv Hkv. rewrite H'; [reflexivity|]. apply in_map. exact Hkv.
Qed.

Lemma pc_map_id c g : (forall t, In t (pc_tensors c) -> g t = t) -> pc_map g c = c.
Proof.
  intros H. rewrite (pc_map_ext c g (fun t => t) H). unfold pc_map. destruct c as [il items]. cbn. f_equal.
  rewrite <- (map_id items) at 2. apply map_ext. intros [?|l|d|]; cbn; auto; f_equal.
  - apply map_id.
  - rewrite <- (map_id d) at 2. apply map_ext. intros [? ?]; reflexivity.
Qed.

Lemma pc_regular_list ts : ts <> [] -> pc_regular (mkPC true (map PT ts)).
Proof.
  destruct ts as [|t ts]; [congruence|]. intros _. unfold pc_regular. cbn. split.
  - apply Forall_map. apply Forall_forall. intros; exact I.
  - destruct ts; cbn; auto.
Qed.

Lemma pc_tensors_list b ts : pc_tensors (mkPC b (map PT ts)) = ts.
Proof. unfold pc_tensors. cbn. induction ts as [|t ts IH]; cbn; [reflexivity|]. rewrite IH. reflexivity. Qed.

Lemma pc_map_list b ts g : pc_map g (mkPC b (map PT ts)) = mkPC b (map PT (map g ts)).
Proof. unfold pc_map. cbn. rewrite !map_map. reflexivity. Qed.

Lemma mkT_eta t : mkT (ttag t) (shp t) (dat t) = t.
Proof. destruct t; reflexivity. Qed.

(** * swap axes *)
Definition perm_of (nax : list nat) (r : nat) : list nat := front_of nax r ++ nax.

Lemma swap_axes_ok axes t : axes_ok (rank t) axes ->
  swap_axes axes t = Ok (permute_nat t (perm_of (map (norm_axis (rank t)) axes) (rank t))).
Proof.
  intros H. unfold swap_axes. rewrite (axes_ok_check _ _ H). cbn [rbind].
  rewrite (transpose_order_ok _ _ H). rewrite <- map_app.
  apply torch_permute_ok. apply axes_ok_perm. exact H.
Qed.

Lemma undo_swap_axes_ok axes t : axes_ok (rank t) axes ->
  undo_swap_axes axes t = Ok (permute_nat t (inv_perm (perm_of (map (norm_axis (rank t)) axes) (rank t)))).
Proof.
  intros H. unfold undo_swap_axes. rewrite (axes_ok_check _ _ H). cbn [rbind].
  rewrite (transpose_order_ok _ _ H). rewrite <- map_app.
  pose proof (axes_ok_perm _ _ H) as Hp. rewrite (argsort_perm _ _ Hp).
  apply torch_permute_ok. apply inv_perm_perm. exact Hp.
Qed.

(** * preprocessing of one tensor *)
(** [nax]: the normalised transformed axes *)
Definition fsz (nax : list nat) (s : list nat) : list nat := gather (front_of nax (length s)) 0 s.
Definition pre_t (nax : list nat) t : tensor K :=
  mkT (ttag t) (prodl (fsz nax (shp t)) :: gather nax 0 (shp t)) (dat (permute_nat t (perm_of nax (rank t)))).
(** [F]: sizes of the untouched axes *)
Definition post_t (nax F : list nat) t : tensor K :=
  permute_nat (mkT (ttag t) (F ++ tl (shp t)) (dat t)) (inv_perm (perm_of nax (length F + length nax))).

Definition good_axes (r : nat) (nax : list nat) : Prop := NoDup nax /\ forall d, In d nax -> d < r.

Lemma good_axes_ok r axes : axes_ok r axes -> good_axes r (map (norm_axis r) axes).
Proof. intros H. split; [apply H|]. intros d. apply axes_ok_lt. exact H. Qed.

Lemma good_perm r nax : good_axes r nax -> is_perm (perm_of nax r) r.
Proof. intros [H1 H2]. apply front_perm; assumption. Qed.

Lemma good_len r nax : good_axes r nax -> length (front_of nax r) = r - length nax /\ length nax <= r.
Proof.
  intros [H1 H2]. pose proof (is_perm_length _ _ (front_perm _ _ H1 H2)) as H. rewrite app_length in H.
  split; lia.
Qed.

Lemma shp_permute_perm_of nax t : shp (permute_nat t (perm_of nax (rank t))) = fsz nax (shp t) ++ gather nax 0 (shp t).
Proof. cbn. unfold perm_of, fsz. apply gather_app. Qed.

Lemma fsz_length nax s : good_axes (length s) nax -> length (fsz nax s) = length s - length nax.
Proof. intros H. unfold fsz. rewrite gather_length. apply good_len. exact H. Qed.

Lemma prodl_perm nax s : good_axes (length s) nax -> prodl (fsz nax s) * prodl (gather nax 0 s) = prodl s.
Proof.
  intros H. unfold fsz. rewrite <- prodl_app, <- gather_app.
  pose proof (good_perm _ _ H) as Hp. unfold perm_of, is_perm in Hp.
  assert (Hperm : forall l l', Permutation l l' -> prodl l = prodl l').
  { intros l l' HP. induction HP; rewrite ?prodl_cons in *; try lia; auto. }
  rewrite (Hperm _ (gather (seq 0 (length s)) 0 s)).
  - rewrite gather_seq_id. reflexivity.
  - unfold gather. apply Permutation_map. exact Hp.
Qed.

Lemma pre_t_wf nax t : good_axes (rank t) nax -> wf (pre_t nax t).
Proof.
  intros H. unfold wf, pre_t. cbn [shp dat]. rewrite prodl_cons. rewrite prodl_perm by exact H.
  pose proof (wf_make (ttag t) (gather (perm_of nax (rank t)) 0 (shp t))
               (fun idx => get t (unperm (perm_of nax (rank t)) idx))) as Hw.
  unfold permute_nat. unfold wf in Hw. rewrite Hw. cbn [shp tmake].
  unfold perm_of. rewrite gather_app, prodl_app. apply prodl_perm. exact H.
Qed.

Lemma get_pre_t nax t idx : good_axes (rank t) nax -> valid idx (shp t) ->
  get (pre_t nax t) (ravel (fsz nax (shp t)) (gather (front_of nax (rank t)) 0 idx) :: gather nax 0 idx)
  = get t idx.
Proof.
  intros H Hv. unfold pre_t. rewrite get_fold.
  - rewrite <- gather_app. rewrite <- (get_permute t (perm_of nax (rank t)) idx); auto using good_perm.
    unfold get. f_equal. f_equal. cbn [shp permute_nat tmake]. symmetry. apply shp_permute_perm_of.
  - unfold fsz. apply valid_gather_sub; [|exact Hv]. intros d Hd. apply in_front in Hd. apply Hd.
Qed.

Lemma post_t_shp nax F t b back : shp t = b :: back ->
  shp (post_t nax F t) = unperm (perm_of nax (length F + length nax)) (F ++ back).
Proof. intros H. unfold post_t. cbn [shp permute_nat tmake]. rewrite gather_inv_perm, H. reflexivity. Qed.

Lemma unperm_split nax r F back : good_axes r nax -> length F = r - length nax -> length back = length nax ->
  let s := unperm (perm_of nax r) (F ++ back) in
  length s = r /\ gather (front_of nax r) 0 s = F /\ gather nax 0 s = back.
Proof.
  intros H HF HB s. pose proof (good_perm _ _ H) as Hp. pose proof (good_len _ _ H) as [Hl1 Hl2].
  assert (Hlen : length (F ++ back) = r) by (rewrite app_length; lia).
  pose proof (gather_unperm _ _ _ Hp Hlen) as Hg. unfold perm_of in Hg at 1. rewrite gather_app in Hg.
  assert (E : length (gather (front_of nax r) 0 (unperm (perm_of nax r) (F ++ back))) = length F)
    by (rewrite gather_length; lia).
  split.
  - unfold s. rewrite unperm_length. apply is_perm_length. exact Hp.
  - assert (Hsp : forall (l1 l2 k1 k2 : list nat), length l1 = length k1 -> l1 ++ l2 = k1 ++ k2 -> l1 = k1 /\ l2 = k2).
    { induction l1 as [|a l1 IH]; intros l2 [|c k1] k2 Hl He; cbn in *; try lia; [auto|].
      injection He as -> He. apply IH in He; [|lia]. destruct He as [-> ->]. auto. }
    apply Hsp in Hg; [exact Hg|exact E].
Qed.

Lemma get_post_t nax F t back idx : wf t ->
  shp t = prodl F :: back -> length back = length nax -> good_axes (length F + length nax) nax ->
  valid idx (shp (post_t nax F t)) ->
  get (post_t nax F t) idx = get t (ravel F (gather (front_of nax (length F + length nax)) 0 idx) :: gather nax 0 idx).
Proof.
  intros Hw Hs Hb Hg Hv. set (r := length F + length nax) in *.
  pose proof (good_perm _ _ Hg) as Hp.
  assert (HF : length F = r - length nax) by (unfold r; lia).
  destruct (unperm_split nax r F back Hg HF Hb) as (Hl & Hf & Hk).
  rewrite (post_t_shp _ _ _ _ _ Hs) in Hv. fold r in Hv.
  pose proof (valid_length _ _ Hv) as Hli. rewrite Hl in Hli.
  unfold post_t. fold r. rewrite get_permute'.
  - rewrite (unperm_inv_perm _ r) by assumption. unfold perm_of. rewrite gather_app.
    rewrite Hs. cbn [tl]. rewrite <- get_fold.
    + destruct t as [g s d]. cbn in *. subst s. reflexivity.
    + assert (Hvf : valid (gather (front_of nax r) 0 idx)
                       (gather (front_of nax r) 0 (unperm (perm_of nax r) (F ++ back)))).
      { apply valid_gather_sub; [|exact Hv]. intros d Hd. rewrite Hl. apply in_front in Hd. apply Hd. }
      rewrite Hf in Hvf. exact Hvf.
  - unfold rank. cbn [shp]. rewrite Hs. cbn [tl]. rewrite app_length, Hb.
    apply inv_perm_perm. exact Hp.
  - cbn [shp]. rewrite Hs, gather_inv_perm. cbn [tl]. exact Hv.
Qed.

Lemma pre_post nax F t back : wf t -> shp t = prodl F :: back -> length back = length nax ->
  good_axes (length F + length nax) nax -> pre_t nax (post_t nax F t) = t.
Proof.
  intros Hw Hs Hb Hg. set (r := length F + length nax) in *.
  assert (HF : length F = r - length nax) by (unfold r; lia).
  destruct (unperm_split nax r F back Hg HF Hb) as (Hl & Hf & Hk).
  assert (Hr : rank (post_t nax F t) = r).
  { unfold rank. rewrite (post_t_shp _ _ _ _ _ Hs). fold r. exact Hl. }
  unfold pre_t. rewrite Hr. rewrite (post_t_shp _ _ _ _ _ Hs). fold r.
  unfold fsz. rewrite Hl, Hf, Hk.
  unfold post_t. fold r. rewrite permute_inv'.
  - destruct t as [g s d]. cbn in *. congruence.
  - unfold wf in *. cbn [shp dat]. rewrite Hs in *. cbn [tl]. rewrite Hw, prodl_cons, prodl_app. reflexivity.
  - unfold rank. cbn [shp]. rewrite Hs. cbn [tl]. rewrite app_length, Hb. apply good_perm. exact Hg.
Qed.

Lemma post_pre nax t : wf t -> good_axes (rank t) nax -> post_t nax (fsz nax (shp t)) (pre_t nax t) = t.
Proof.
  intros Hw Hg. unfold post_t, pre_t. cbn [shp tl ttag dat].
  pose proof (good_len _ _ Hg) as [Hl1 Hl2].
  rewrite fsz_length by exact Hg. fold (rank t). replace (rank t - length nax + length nax) with (rank t) by lia.
  replace (mkT (ttag t) (fsz nax (shp t) ++ gather nax 0 (shp t)) (dat (permute_nat t (perm_of nax (rank t)))))
    with (permute_nat t (perm_of nax (rank t))).
  - apply permute_inv; [exact Hw|]. apply good_perm. exact Hg.
  - rewrite <- shp_permute_perm_of. symmetry. apply (mkT_eta (permute_nat t (perm_of nax (rank t)))).
Qed.

(** * preprocess_coeffs *)
Lemma perm_of_default r ndim : ndim <= r -> perm_of (map (norm_axis r) (default_axes ndim)) r = seq 0 r.
Proof.
  intros H. rewrite default_axes_norm by exact H. unfold perm_of. rewrite default_front by exact H.
  change (seq (r - ndim) ndim) with (seq (0 + (r - ndim)) ndim). rewrite <- seq_app. f_equal. lia.
Qed.

Lemma fold_batch_all t ndim r nax :
  wf t -> rank t = r -> good_axes r nax -> length nax = ndim ->
  let q := permute_nat t (perm_of nax r) in
  (r = ndim -> unsqueeze q 0 = pre_t nax t) /\
  (r = ndim + 1 -> q = pre_t nax t) /\
  (ndim < r -> fold_batch ndim q = Ok (pre_t nax t)).
Proof.
  intros Hw Hr Hg Hn q. subst r.
  assert (Hq : shp q = fsz nax (shp t) ++ gather nax 0 (shp t)) by apply shp_permute_perm_of.
  pose proof (fsz_length _ _ Hg) as Hfl. fold (rank t) in Hfl.
  repeat split.
  - intros He. assert (E : fsz nax (shp t) = []) by (apply length_zero_iff_nil; lia).
    rewrite E in Hq. cbn [app] in Hq. unfold unsqueeze, pre_t, insertn. cbn [firstn skipn app]. fold q.
    rewrite Hq, E. reflexivity.
  - intros He. assert (Hfl1 : length (fsz nax (shp t)) = 1) by lia.
    destruct (fsz nax (shp t)) as [|b [|? ?]] eqn:E; cbn in Hfl1; try lia.
    unfold pre_t. fold q. rewrite E. rewrite prodl_cons, prodl_nil, Nat.mul_1_r.
    cbn [app] in Hq. rewrite <- Hq. symmetry. apply (mkT_eta q).
  - intros He. unfold fold_batch, fold_axes.
    assert (Hlen : length (shp q) = rank t).
    { rewrite Hq, app_length, gather_length. lia. }
    rewrite Hlen. rewrite Hq. rewrite firstn_app_exact by lia. rewrite skipn_app_exact by lia.
    rewrite reshape_ok; [reflexivity|]. rewrite Hq, prodl_app, prodl_cons. reflexivity.
Qed.

Definition first_shape (c : pycoeffs K) : list nat :=
  match pc_items c with PT t :: _ => shp t | _ => [] end.
Definition first_dtype (c : pycoeffs K) : dtype :=
  match pc_items c with PT t :: _ => tdtype t | _ => float16 end.

Lemma first_in c : pc_regular c -> exists t, In t (pc_tensors c) /\ pc_items c = PT t :: tl (pc_items c)
  /\ first_shape c = shp t /\ first_dtype c = tdtype t.
Proof.
  unfold pc_regular, pc_tensors, first_shape, first_dtype. destruct (pc_items c) as [|[t| | |] rest]; try tauto.
  intros _. exists t. cbn. auto.
Qed.

Lemma preprocess_coeffs_ok c ndim h axes r ch :
  pc_regular c -> is_dtype_supported (first_dtype c) = true ->
  0 < ndim -> hint_axes h ndim = Some axes -> length axes = ndim -> axes_ok r axes ->
  (forall t, In t (pc_tensors c) -> wf t /\ rank t = r) ->
  let nax := map (norm_axis r) axes in
  preprocess_coeffs c ndim h ch =
  Ok (pc_map (fun t => if ch then unsqueeze (pre_t nax t) 1 else pre_t nax t) c,
      fsz nax (first_shape c) ++ gather nax 0 (first_shape c)).
Proof.
  intros Hreg Hdt Hnd Hh Hla Hax Hall nax.
  destruct (first_in c Hreg) as (t0 & Ht0 & Hit & Hs0 & Hd0).
  unfold preprocess_coeffs. destruct (Nat.leb_spec ndim 0); [lia|].
  rewrite Hit. cbn [check_if_tensor rbind]. rewrite <- Hd0, Hdt. cbn [negb].
  rewrite (ensure_axes_ok _ _ _ _ Hh Hax). cbn [rbind].
  unfold get_default_axes. destruct (Nat.ltb_spec ndim 1); [lia|]. cbn [rbind].
  pose proof (good_axes_ok _ _ Hax) as Hg. fold nax in Hg.
  assert (Hln : length nax = ndim) by (unfold nax; rewrite map_length; exact Hla).
  assert (Hswap : (if list_eqb Z.eqb axes (map (fun i => (Z.of_nat i - Z.of_nat ndim)%Z) (seq 0 ndim)) then Ok c
                   else coeff_tree_map c (swap_axes axes))
                  = Ok (pc_map (fun t => permute_nat t (perm_of nax r)) c)).
  { destruct (list_eqb Z.eqb axes _) eqn:E.
    - apply list_eqb_Z_spec in E. fold (default_axes ndim) in E.
      f_equal. symmetry. apply pc_map_id. intros t Ht. destruct (Hall t Ht) as [Hw Hr].
      unfold nax. rewrite E. rewrite perm_of_default by (pose proof (axes_ok_length _ _ Hax); lia).
      rewrite <- Hr. apply permute_id. exact Hw.
    - apply tree_map_ok; [exact Hreg|]. intros t Ht. destruct (Hall t Ht) as [Hw Hr].
      rewrite swap_axes_ok by (rewrite Hr; exact Hax). rewrite Hr. reflexivity. }
  rewrite Hswap. cbn [rbind].
  assert (Hi1 : exists rest, pc_items (pc_map (fun t => permute_nat t (perm_of nax r)) c)
                 = PT (permute_nat t0 (perm_of nax r)) :: rest).
  { unfold pc_map. cbn [pc_items]. rewrite Hit. cbn [map pv_map]. eauto. }
  destruct Hi1 as [rest Hi1]. rewrite Hi1.
  destruct (Hall t0 Ht0) as [Hw0 Hr0].
  assert (Hds : shp (permute_nat t0 (perm_of nax r)) = fsz nax (first_shape c) ++ gather nax 0 (first_shape c)).
  { rewrite Hs0. rewrite <- Hr0. apply shp_permute_perm_of. }
  assert (Hdl : length (shp (permute_nat t0 (perm_of nax r))) = r).
  { rewrite Hds, Hs0. rewrite app_length, gather_length. rewrite fsz_length.
    - fold (rank t0). rewrite Hr0. pose proof (good_len _ _ Hg). lia.
    - fold (rank t0). rewrite Hr0. exact Hg. }
  set (q := fun t : tensor K => permute_nat t (perm_of nax r)) in *.
  pose proof (axes_ok_length _ _ Hax) as Hlr.
  assert (Hfold :
    (if Nat.ltb (length (shp (q t0))) ndim then Raise ValueError
     else if Nat.eqb (length (shp (q t0))) ndim then coeff_tree_map (pc_map q c) (fun x => Ok (unsqueeze x 0))
     else if Nat.ltb (ndim + 1) (length (shp (q t0))) then coeff_tree_map (pc_map q c) (fold_batch ndim)
     else Ok (pc_map q c)) = Ok (pc_map (pre_t nax) c)).
  { unfold q at 1 2 4. rewrite Hdl. destruct (Nat.ltb_spec r ndim); [lia|].
    destruct (Nat.eqb_spec r ndim) as [He|Hne].
    - rewrite (tree_map_ok _ _ (fun x => unsqueeze x 0)); [|apply pc_map_regular; exact Hreg|reflexivity].
      rewrite pc_map_map. f_equal. apply pc_map_ext. intros t Ht. destruct (Hall t Ht) as [Hw Hr].
      apply (fold_batch_all t ndim r nax Hw Hr Hg Hln). exact He.
    - destruct (Nat.ltb_spec (ndim + 1) r).
      + rewrite (tree_map_ok _ _ (fun x => match fold_batch ndim x with Ok y => y | Raise _ => x end)).
        * rewrite pc_map_map. f_equal. apply pc_map_ext. intros t Ht. destruct (Hall t Ht) as [Hw Hr].
          pose proof (fold_batch_all t ndim r nax Hw Hr Hg Hln) as (_ & _ & Hf).
          unfold q. rewrite Hf by lia. reflexivity.
        * apply pc_map_regular; exact Hreg.
        * intros x Hx. rewrite pc_map_tensors in Hx. apply in_map_iff in Hx as (t & <- & Ht).
          destruct (Hall t Ht) as [Hw Hr].
          pose proof (fold_batch_all t ndim r nax Hw Hr Hg Hln) as (_ & _ & Hf).
          unfold q. rewrite Hf by lia. reflexivity.
      + f_equal. apply pc_map_ext. intros t Ht. destruct (Hall t Ht) as [Hw Hr].
        apply (fold_batch_all t ndim r nax Hw Hr Hg Hln). lia. }
  cbv zeta. change (permute_nat t0 (perm_of nax r)) with (q t0). rewrite Hfold. cbn [rbind]. unfold q. rewrite Hds.
  destruct ch; [|reflexivity].
  rewrite (tree_map_ok _ _ (fun x => unsqueeze x 1)); [|apply pc_map_regular; exact Hreg|reflexivity].
  cbn [rbind]. rewrite pc_map_map. reflexivity.
Qed.

(** * postprocess_coeffs *)
Lemma postprocess_coeffs_ok c ndim h axes r F bk :
  pc_regular c -> 0 < ndim -> hint_axes h ndim = Some axes -> length axes = ndim -> axes_ok r axes ->
  length F = r - ndim -> length bk = ndim ->
  (forall t, In t (pc_tensors c) -> wf t /\ exists back, shp t = prodl F :: back /\ length back = ndim) ->
  postprocess_coeffs c ndim (F ++ bk) h = Ok (pc_map (post_t (map (norm_axis r) axes) F) c).
Proof.
  intros Hreg Hnd Hh Hla Hax HF Hbk Hall. set (nax := map (norm_axis r) axes).
  pose proof (axes_ok_length _ _ Hax) as Hlr.
  pose proof (good_axes_ok _ _ Hax) as Hg. fold nax in Hg.
  assert (Hln : length nax = ndim) by (unfold nax; rewrite map_length; exact Hla).
  unfold postprocess_coeffs. destruct (Nat.leb_spec ndim 0); [lia|].
  rewrite (ensure_axes_ok _ _ _ _ Hh Hax). cbn [rbind].
  assert (Hdl : length (F ++ bk) = r) by (rewrite app_length; lia). rewrite Hdl.
  set (u := fun t : tensor K => mkT (ttag t) (F ++ tl (shp t)) (dat t)).
  assert (Hunf :
     (if Nat.ltb r ndim then Raise ValueError
      else if Nat.eqb r ndim then coeff_tree_map c (fun x => Ok (squeeze x 0))
      else if Nat.ltb (ndim + 1) r then coeff_tree_map c (fun x => unfold_axes x (F ++ bk) ndim)
      else Ok c) = Ok (pc_map u c)).
  { destruct (Nat.ltb_spec r ndim); [lia|].
    destruct (Nat.eqb_spec r ndim) as [He|Hne].
    - apply tree_map_ok; [exact Hreg|]. intros t Ht. destruct (Hall t Ht) as (Hw & back & Hs & Hb).
      f_equal. assert (F = []) as EF by (apply length_zero_iff_nil; lia).
      unfold u, squeeze. rewrite Hs, EF. reflexivity.
    - destruct (Nat.ltb_spec (ndim + 1) r).
      + apply tree_map_ok; [exact Hreg|]. intros t Ht. destruct (Hall t Ht) as (Hw & back & Hs & Hb).
        unfold unfold_axes, rank. rewrite Hdl, Hs. rewrite firstn_app_exact by lia.
        replace (length (prodl F :: back) - ndim) with 1 by (cbn [length]; lia). cbn [skipn].
        rewrite reshape_ok; [unfold u; rewrite Hs; reflexivity|].
        rewrite Hs, prodl_cons, prodl_app. reflexivity.
      + f_equal. symmetry. apply pc_map_id. intros t Ht. destruct (Hall t Ht) as (Hw & back & Hs & Hb).
        assert (HF1 : length F = 1) by lia. destruct F as [|f [|? ?]]; cbn in HF1; try lia.
        unfold u. destruct t as [g s d]. cbn in *. subst s. cbn.
        rewrite prodl_cons, prodl_nil, Nat.mul_1_r. reflexivity. }
  rewrite Hunf. cbn [rbind]. unfold get_default_axes. destruct (Nat.ltb_spec ndim 1); [lia|]. cbn [rbind].
  assert (Hru : forall t, In t (pc_tensors c) -> wf (u t) /\ rank (u t) = r).
  { intros t Ht. destruct (Hall t Ht) as (Hw & back & Hs & Hb). unfold u, wf, rank in *. cbn [shp dat].
    rewrite Hs in *. cbn [tl]. rewrite app_length, prodl_app. rewrite prodl_cons in Hw. split; [exact Hw|lia]. }
  assert (HFr : length F + length nax = r) by lia.
  destruct (list_eqb Z.eqb axes _) eqn:E.
  - apply list_eqb_Z_spec in E. fold (default_axes ndim) in E. f_equal. apply pc_map_ext.
    intros t Ht. destruct (Hru t Ht) as [Hwu Hrku]. unfold post_t. fold (u t).
    rewrite HFr. unfold nax. rewrite E. rewrite perm_of_default by lia.
    assert (Hinv : inv_perm (seq 0 r) = seq 0 r).
    { unfold inv_perm. rewrite seq_length. transitivity (map (fun d : nat => d) (seq 0 r)); [|apply map_id]. apply map_ext_in.
      intros d Hd. apply in_seq in Hd. rewrite <- (nth_seq0 d r 0) at 1 by lia.
      apply index_of_nth; [apply seq_NoDup|rewrite seq_length; lia]. }
    rewrite Hinv. rewrite <- Hrku. symmetry. apply permute_id. exact Hwu.
  - rewrite (tree_map_ok _ _ (fun x => permute_nat x (inv_perm (perm_of nax r)))).
    + rewrite pc_map_map. f_equal. apply pc_map_ext. intros t Ht. unfold post_t. fold (u t).
      rewrite HFr. reflexivity.
    + apply pc_map_regular. exact Hreg.
    + intros x Hx. rewrite pc_map_tensors in Hx. apply in_map_iff in Hx as (t & <- & Ht).
      destruct (Hru t Ht) as [Hwu Hrku]. rewrite undo_swap_axes_ok by (rewrite Hrku; exact Hax).
      rewrite Hrku. reflexivity.
Qed.

End C.
