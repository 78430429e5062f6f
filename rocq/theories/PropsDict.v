(** C74: the order in which the keys of a coefficient dictionary were inserted does not matter. *)
From Coq Require Import List Arith ZArith Lia Bool String Ascii Permutation.
From Verif Require Import Base Sums Tensor TensorFacts Util Perm Plumb Accept Spec Conv1 Conv3 Sep SepFacts SepRec2 Sparse Mat1 MatN.
Import ListNotations.
Local Open Scope nat_scope.

(** the same container up to the insertion order of its dictionaries; keys of a dictionary are distinct *)
Inductive reordered {K : CRing} : pyval K -> pyval K -> Prop :=
| reo_same v : (forall d, v <> PDict d) -> reordered v v
| reo_dict d d' : NoDup (map fst d) -> Permutation d d' -> reordered (PDict d) (PDict d').
(** all keys of every dictionary have the same number of letters *)
Definition uniform_keys {K : CRing} (v : pyval K) : Prop :=
  match v with PDict d => exists n, Forall (fun kv => String.length (fst kv) = n) d | _ => True end.

Section D.
Context {K : CRing}.
Notation T := (tensor K).

Lemma rmap_perm {A B} (f : A -> result B) l l' : Permutation l l' -> forall r, rmap f l = Ok r -> exists r', rmap f l' = Ok r' /\ Permutation r r'.
Proof.
  induction 1 as [|x l l' HP IH|x y l|l1 l2 l3 H1 IH1 H2 IH2]; intros r Hr.
  - exists r. auto.
  - cbn [rmap] in Hr |- *. apply rbind_ok in Hr as (a & Ha & Hr). apply rbind_ok in Hr as (q & Hq & Hr). apply IH in Hq as (q' & -> & Hp). rewrite Ha. cbn. exists (a :: q'). split; [reflexivity|]. injection Hr as <-. auto.
  - cbn [rmap] in Hr |- *. apply rbind_ok in Hr as (a & Ha & Hr). apply rbind_ok in Hr as (q & Hq & Hr). apply rbind_ok in Hq as (b & Hb & Hq). apply rbind_ok in Hq as (q0 & Hq0 & Hq).
    rewrite Ha, Hb, Hq0. cbn. eexists. split; [reflexivity|]. injection Hq as <-. injection Hr as <-. apply perm_swap.
  - apply IH1 in Hr as (r' & Hr' & P1). apply IH2 in Hr' as (r'' & Hr'' & P2). exists r''. split; [exact Hr''|]. eapply perm_trans; eauto.
Qed.
Lemma map_dict_keys f (d d1 : list (string * T)) : map_dict f d = Ok d1 -> map fst d1 = map fst d.
Proof.
  revert d1. unfold map_dict. induction d as [|kv d IH]; intros d1 H; [injection H as <-; reflexivity|]. cbn [rmap] in H.
  apply rbind_ok in H as (a & Ha & H). apply rbind_ok in H as (q & Hq & H). apply rbind_ok in Ha as (v & _ & Ha). injection Ha as <-. injection H as <-. cbn. rewrite (IH q Hq). reflexivity.
Qed.
Lemma map_element_re f (v v' v1 : pyval K) : reordered v v' -> map_element f v = Ok v1 -> exists v1', map_element f v' = Ok v1' /\ reordered v1 v1'.
Proof.
  intros [u Hu|d d' Hn Hp] H.
  - exists v1. split; [exact H|]. apply reo_same. intros d ->. destruct u as [t|[|a [|b [|c l]]]|d0|]; cbn in H; try discriminate; repeat (apply rbind_ok in H as (? & ? & H)); try discriminate. apply (Hu d0). reflexivity.
  - cbn [map_element] in H |- *. apply rbind_ok in H as (d1 & Hd & H). injection H as <-. pose proof Hd as Hk. apply map_dict_keys in Hk.
    apply (rmap_perm _ _ _ Hp) in Hd as (d1' & Hd' & Hp'). unfold map_dict. rewrite Hd'. cbn. eexists. split; [reflexivity|]. constructor; [rewrite Hk; exact Hn|exact Hp'].
Qed.
Lemma rmap_re f (l l' r : list (pyval K)) : Forall2 reordered l l' -> rmap (map_element f) l = Ok r -> exists r', rmap (map_element f) l' = Ok r' /\ Forall2 reordered r r'.
Proof.
  intros HF. revert r. induction HF as [|v v' l l' Hv HF IH]; intros r Hr; [exists r; split; [exact Hr|injection Hr as <-; constructor]|].
  cbn [rmap] in Hr |- *. apply rbind_ok in Hr as (a & Ha & Hr). apply rbind_ok in Hr as (q & Hq & Hr). injection Hr as <-.
  destruct (map_element_re f v v' a Hv Ha) as (a' & -> & Ra). destruct (IH q Hq) as (q' & -> & Rq). cbn. eexists. split; [reflexivity|]. constructor; assumption.
Qed.
Lemma tree_map_re f b (l l' : list (pyval K)) c1 : Forall2 reordered l l' -> coeff_tree_map (mkPC b l) f = Ok c1 ->
  exists l1', coeff_tree_map (mkPC b l') f = Ok (mkPC (pc_is_list c1) l1') /\ Forall2 reordered (pc_items c1) l1'.
Proof.
  intros HF H. destruct HF as [|v v' l l' Hv HF]; [discriminate|]. cbn [coeff_tree_map pc_items pc_is_list] in H |- *. destruct v as [t| | |]; try discriminate.
  inversion Hv as [u Hu|]; subst. apply rbind_ok in H as (a & Ha & H). apply rbind_ok in H as (r & Hr & H). destruct (rmap_re f l l' r HF Hr) as (r' & Hr' & HR). rewrite Ha. cbn [rbind]. rewrite Hr'. cbn [rbind].
  destruct HR as [|v1 v1' r r' H1 HR]; [injection H as <-; cbn; eexists; split; [reflexivity|]; constructor; [apply reo_same; discriminate|constructor]|].
  assert (Q : forall l2 l2', Forall2 reordered l2 l2' -> Forall2 reordered (PT a :: l2) (PT a :: l2')) by (intros; constructor; [apply reo_same; discriminate|assumption]).
  destruct H1 as [u1 Hu1|d d' Hn Hp].
  - destruct u1; injection H as <-; cbn; eexists; (split; [reflexivity|]); apply Q; constructor; try assumption; apply reo_same; assumption.
  - injection H as <-. cbn. eexists. split; [reflexivity|]. apply Q. constructor; [constructor; assumption|assumption].
Qed.
Lemma preprocess_re n h ac b (l l' : list (pyval K)) c1 ds : Forall2 reordered l l' -> preprocess_coeffs (mkPC b l) n h ac = Ok (c1, ds) ->
  exists l1', preprocess_coeffs (mkPC b l') n h ac = Ok (mkPC (pc_is_list c1) l1', ds) /\ Forall2 reordered (pc_items c1) l1'.
Proof.
  intros HF H. unfold preprocess_coeffs in *. cbn [pc_items] in *. destruct (n <=? 0); [discriminate|]. inversion HF as [|v v' m m' Hv Hm]; subst; [discriminate|].
  apply rbind_ok in H as (t0 & Ht0 & H). destruct v as [t| | |]; try discriminate. inversion Hv; subst. rewrite Ht0. cbn [rbind].
  destruct (negb (is_dtype_supported (tdtype t0))); [discriminate|]. apply rbind_ok in H as (ax & -> & H). apply rbind_ok in H as (dax & -> & H). cbn [rbind].
  apply rbind_ok in H as (c & Hc & H).
  assert (E : exists l1', (if list_eqb Z.eqb ax dax then Ok (mkPC b (PT t :: m')) else coeff_tree_map (mkPC b (PT t :: m')) (swap_axes ax)) = Ok (mkPC (pc_is_list c) l1') /\ Forall2 reordered (pc_items c) l1').
  { destruct (list_eqb Z.eqb ax dax); [injection Hc as <-; eexists; split; [reflexivity|exact HF]|]. eapply tree_map_re; eauto. }
  destruct E as (k & -> & Hk). cbn [rbind]. clear HF Hm Hv Hc Ht0. destruct c as [cb ci]. cbn [pc_items pc_is_list] in *.
  destruct ci as [|[t1| | |] ci]; try discriminate. inversion Hk as [|? ? ? k' Hv1 Hk']; subst. inversion Hv1; subst.
  apply rbind_ok in H as (c2 & Hc2 & H).
  assert (E : exists l1', (if List.length (shp t1) <? n then Raise ValueError else if List.length (shp t1) =? n then coeff_tree_map (mkPC cb (PT t1 :: k')) (fun x => Ok (unsqueeze x 0))
           else if n + 1 <? List.length (shp t1) then coeff_tree_map (mkPC cb (PT t1 :: k')) (fold_batch n) else Ok (mkPC cb (PT t1 :: k'))) = Ok (mkPC (pc_is_list c2) l1') /\ Forall2 reordered (pc_items c2) l1').
  { destruct (List.length (shp t1) <? n); [discriminate|]. destruct (List.length (shp t1) =? n); [eapply tree_map_re; eauto|]. destruct (n + 1 <? List.length (shp t1)); [eapply tree_map_re; eauto|]. injection Hc2 as <-. eexists. split; [reflexivity|exact Hk]. }
  destruct E as (k2 & -> & Hk2). cbn [rbind]. apply rbind_ok in H as (c3 & Hc3 & H). injection H as <- <-.
  assert (E : exists l1', (if ac then coeff_tree_map (mkPC (pc_is_list c2) k2) (fun x => Ok (unsqueeze x 1)) else Ok (mkPC (pc_is_list c2) k2)) = Ok (mkPC (pc_is_list c3) l1') /\ Forall2 reordered (pc_items c3) l1').
  { destruct ac; [destruct c2; eapply tree_map_re; eauto|]. injection Hc3 as <-. eexists. split; [reflexivity|exact Hk2]. }
  destruct E as (k3 & -> & Hk3). cbn [rbind]. eauto.
Qed.
Lemma check_re b (l l' : list (pyval K)) g : Forall2 reordered l l' -> check_same_device_dtype (mkPC b l) = Ok g -> check_same_device_dtype (mkPC b l') = Ok g.
Proof.
  intros HF H. unfold check_same_device_dtype in *. cbn [pc_items] in *. inversion HF as [|v v' m m' Hv Hm]; subst; [discriminate|].
  apply rbind_ok in H as (t & Ht & H). destruct v; try discriminate. inversion Hv; subst. rewrite Ht. cbn [rbind].
  apply rbind_ok in H as (c1 & H1 & H). apply rbind_ok in H as (c2 & H2 & H).
  destruct (tree_map_re _ _ _ _ _ HF H1) as (? & -> & _). destruct (tree_map_re _ _ _ _ _ HF H2) as (? & -> & _). cbn. exact H.
Qed.

Lemma get3_in {A} (d : list (string * A)) k v : NoDup (map fst d) -> (Conv3.dict_get d k = Ok v <-> In (k, v) d).
Proof.
  unfold Conv3.dict_get. induction d as [|[k' v'] d IH]; cbn [map fst find]; intros Hn; [split; [discriminate|intros []]|]. inversion Hn as [|? ? Hni Hn']; subst. destruct (String.eqb_spec k' k) as [->|Hk].
  - split; [intros E; injection E as <-; left; reflexivity|]. intros [E|E]; [injection E as <-; reflexivity|]. exfalso. apply Hni. apply (in_map fst) in E. exact E.
  - specialize (IH Hn'). split.
    + intros E. right. apply IH. exact E.
    + intros [E|E]; [injection E as ? ?; contradiction|]. apply IH. exact E.
Qed.
Lemma getS_in (d : sdict (K := K)) k v : NoDup (map fst d) -> (Sep.dict_get d k = Some v <-> In (k, v) d).
Proof.
  induction d as [|[k' v'] d IH]; cbn [map fst Sep.dict_get]; intros Hn; [split; [discriminate|intros []]|]. inversion Hn as [|? ? Hni Hn']; subst. destruct (String.eqb_spec k' k) as [->|Hk].
  - split; [intros E; injection E as <-; left; reflexivity|]. intros [E|E]; [injection E as <-; reflexivity|]. exfalso. apply Hni. apply (in_map fst) in E. exact E.
  - specialize (IH Hn'). split.
    + intros E. right. apply IH. exact E.
    + intros [E|E]; [injection E as ? ?; contradiction|]. apply IH. exact E.
Qed.
Lemma perm_keys {A} (d d' : list (string * A)) : Permutation d d' -> NoDup (map fst d) -> NoDup (map fst d').
Proof. intros Hp Hn. eapply Permutation_NoDup; [apply Permutation_map, Hp|exact Hn]. Qed.
Lemma get3_re {A} (d d' : list (string * A)) k : NoDup (map fst d) -> Permutation d d' -> Conv3.dict_get d' k = Conv3.dict_get d k.
Proof.
  intros Hn Hp. destruct (Conv3.dict_get d k) as [v|e] eqn:E.
  - apply get3_in; [eapply perm_keys; eauto|]. apply get3_in in E; [|exact Hn]. eapply Permutation_in; eauto.
  - destruct (Conv3.dict_get d' k) as [v'|e'] eqn:E'.
    + exfalso. apply get3_in in E'; [|eapply perm_keys; eauto]. apply (Permutation_in _ (Permutation_sym Hp)) in E'. apply get3_in in E'; [congruence|exact Hn].
    + unfold Conv3.dict_get in *. destruct (find _ d); [discriminate|]. destruct (find _ d'); [discriminate|]. congruence.
Qed.
Lemma getS_re (d d' : sdict (K := K)) k : NoDup (map fst d) -> Permutation d d' -> Sep.dict_get d' k = Sep.dict_get d k.
Proof.
  intros Hn Hp. destruct (Sep.dict_get d k) as [v|] eqn:E.
  - apply getS_in; [eapply perm_keys; eauto|]. apply getS_in in E; [|exact Hn]. eapply Permutation_in; eauto.
  - destruct (Sep.dict_get d' k) as [v'|] eqn:E'; [|reflexivity].
    exfalso. apply getS_in in E'; [|eapply perm_keys; eauto]. apply (Permutation_in _ (Permutation_sym Hp)) in E'. apply getS_in in E'; [congruence|exact Hn].
Qed.
Lemma forallb_re {A} (p : A -> bool) l l' : Permutation l l' -> forallb p l' = forallb p l.
Proof. induction 1; cbn; try congruence. destruct (p x), (p y); reflexivity. Qed.
Lemma rmap_ext_get {A B} (f g : A -> result B) l : (forall a, f a = g a) -> rmap f l = rmap g l.
Proof. intros H. induction l as [|a l IH]; cbn; [reflexivity|]. rewrite H, IH. reflexivity. Qed.

(** ** waverec3 *)
Lemma loop3_re filt L (his his' : list (pyval K)) : Forall2 reordered his his' -> forall lll y, waverec3_loop filt L lll his = Ok y -> waverec3_loop filt L lll his' = Ok y.
Proof.
  induction 1 as [|v v' his his' Hv HF IH]; intros lll y H; [exact H|]. cbn [waverec3_loop] in H |- *.
  destruct Hv as [u Hu|d d' Hn Hp]; [destruct u; try discriminate; exfalso; eapply Hu; reflexivity|].
  rewrite <- (Permutation_length Hp). destruct (List.length d =? 7); [|discriminate]. rewrite (forallb_re _ _ _ Hp). destruct (forallb _ d); [|discriminate].
  apply rbind_ok in H as (nx & Hnx & H). apply rbind_ok in H as (r & Hr & H).
  assert (E : match his' with [] => Ok None | h :: _ => let* s := next_shape3 h in Ok (Some s) end = Ok nx).
  { inversion HF as [|u u' q q' Hu Hq]; subst; [exact Hnx|]. destruct Hu as [u Hu|e e' Hn' Hp']; [exact Hnx|]. cbn [next_shape3] in *. rewrite (get3_re e e' _ Hn' Hp'). exact Hnx. }
  rewrite E. cbn [rbind]. unfold waverec3_step in *. rewrite (rmap_ext_get (Conv3.dict_get d') (Conv3.dict_get d)) by (intros; apply get3_re; assumption). rewrite Hr. cbn [rbind]. apply IH, H.
Qed.
Theorem C74_waverec3 b (items items' : list (pyval K)) w axes y : Forall2 reordered items items' ->
  waverec3 (mkPC b items) w axes = Ok y -> waverec3 (mkPC b items') w axes = Ok y.
Proof.
  intros HF H. unfold waverec3 in *. apply rbind_ok in H as ([c ds] & Hpp & H). destruct (preprocess_re _ _ _ _ _ _ _ _ HF Hpp) as (l1 & -> & HR). cbn [rbind].
  apply rbind_ok in H as (g & Hg & H). destruct c as [cb ci]. cbn [pc_items pc_is_list] in *. rewrite (check_re _ _ _ _ HR Hg). cbn [rbind].
  destruct (get_filter_tensors w false g) as [[[dlo dhi] rlo] rhi]. apply rbind_ok in H as (filt & -> & H). cbn [rbind]. 
  destruct ci as [|[lll| | |] his]; try discriminate. inversion HR as [|? ? ? his' Hv HR']; subst. inversion Hv; subst.
  apply rbind_ok in H as (r & Hr & H). rewrite (loop3_re _ _ _ _ HR' _ _ Hr). exact H.
Qed.

(** ** dictionaries as finite maps *)
Lemma nodup_keys {A} (d : list (string * A)) : NoDup (map fst d) -> NoDup d.
Proof. apply NoDup_map_inv. Qed.
Lemma perm_get (d d' : sdict (K := K)) : NoDup (map fst d) -> NoDup (map fst d') -> (forall k, Sep.dict_get d' k = Sep.dict_get d k) -> Permutation d d'.
Proof.
  intros H1 H2 H. apply NoDup_Permutation; [apply nodup_keys, H1|apply nodup_keys, H2|]. intros [k v]. rewrite <- (getS_in d k v H1), <- (getS_in d' k v H2), H. reflexivity.
Qed.
Lemma set_nodup (d : sdict (K := K)) k v : NoDup (map fst d) -> NoDup (map fst (dict_set d k v)).
Proof.
  induction d as [|[k' v'] d IH]; cbn [dict_set map fst]; intros Hn; [repeat constructor; intros []|]. inversion Hn as [|? ? Hni Hn']; subst. destruct (String.eqb_spec k' k) as [->|Hk]; [constructor; assumption|].
  cbn [map fst]. constructor; [|apply IH, Hn']. intros Hin. apply dict_set_keys in Hin as [Hin|Hin]; [apply Hk, Hin|apply Hni, Hin].
Qed.
Lemma set_re (d d' : sdict (K := K)) k v : NoDup (map fst d) -> Permutation d d' -> Permutation (dict_set d k v) (dict_set d' k v).
Proof.
  intros Hn Hp. apply perm_get; [apply set_nodup, Hn|apply set_nodup; eapply perm_keys; eauto|]. intros k'. rewrite !dict_get_set. rewrite (getS_re d d' k' Hn Hp). reflexivity.
Qed.
Lemma set_new (d : sdict (K := K)) k v : ~ In k (map fst d) -> dict_set d k v = d ++ [(k, v)].
Proof.
  induction d as [|[k' v'] d IH]; cbn [dict_set map fst app]; intros Hn; [reflexivity|]. destruct (String.eqb_spec k' k) as [->|Hk]; [exfalso; apply Hn; left; reflexivity|].
  rewrite IH by (intros Hin; apply Hn; right; exact Hin). reflexivity.
Qed.
Definition uniform (n : nat) (d : sdict (K := K)) : Prop := Forall (fun kv => String.length (fst kv) = n) d.
Lemma set_uniform n (d : sdict (K := K)) k v : uniform n d -> String.length k = n -> uniform n (dict_set d k v).
Proof.
  intros H Hk. induction H as [|[k' v'] d H1 H IH]; cbn [dict_set]; [repeat constructor; exact Hk|]. destruct (String.eqb_spec k' k) as [->|Hne]; constructor; auto.
Qed.
Lemma perm_uniform n (d d' : sdict (K := K)) : Permutation d d' -> uniform n d -> uniform n d'.
Proof. intros Hp H. unfold uniform in *. rewrite Forall_forall in *. intros kv Hin. apply H. eapply Permutation_in; [apply Permutation_sym, Hp|exact Hin]. Qed.
Lemma max_re (d d' : sdict (K := K)) : Permutation d d' -> max_key d' = max_key d.
Proof.
  intros Hp. unfold max_key. assert (E : fold_right Nat.max 0 (map (fun kv : string * T => String.length (fst kv)) d') = fold_right Nat.max 0 (map (fun kv : string * T => String.length (fst kv)) d)).
  { induction Hp; cbn; try congruence; lia. }
  rewrite E. destruct d as [|a d], d' as [|a' d']; try reflexivity; apply Permutation_length in Hp; discriminate.
Qed.
Lemma filter_perm {A} (p : A -> bool) l l' : Permutation l l' -> Permutation (filter p l) (filter p l').
Proof. induction 1 as [|x l l' H IH|x y l|]; cbn; auto; [destruct (p x); auto|destruct (p x), (p y); auto; constructor|eapply perm_trans; eauto]. Qed.
Lemma filter_keys {A} (p : string * A -> bool) l : NoDup (map fst l) -> NoDup (map fst (filter p l)).
Proof.
  induction l as [|kv l IH]; cbn; intros H; [constructor|]. inversion H as [|? ? Hni H']; subst. destruct (p kv); cbn; [|apply IH, H']. constructor; [|apply IH, H'].
  intros Hin. apply Hni. apply in_map_iff in Hin as (kv' & E & Hin). apply filter_In in Hin as [Hin _]. apply in_map_iff. exists kv'. auto.
Qed.

(** ** one pass over the keys that start with a, for both recursive reconstructions *)
Section Pass.
Context (g : string * T -> result T).
Fixpoint gpass (entries : list (string * T)) (done : sdict (K := K)) : result (T + sdict (K := K)) :=
  match entries with
  | [] => Ok (inr done)
  | kv :: rest => let* c := g kv in match tails_key (fst kv) with EmptyString => Ok (inl c) | k => gpass rest (dict_set done k c) end
  end.
Definition gstep (kv : string * T) : result (string * T) := let* c := g kv in Ok (tails_key (fst kv), c).
Lemma gpass_long entries : forall done, Forall (fun kv => tails_key (fst kv) <> EmptyString) entries -> NoDup (map fst done ++ map (fun kv => tails_key (fst kv)) entries) ->
  gpass entries done = let* r := rmap gstep entries in Ok (inr (done ++ r)).
Proof.
  induction entries as [|kv entries IH]; intros done Hne Hn; [cbn; rewrite app_nil_r; reflexivity|]. cbn [gpass rmap]. unfold gstep at 1. destruct (g kv) as [c|e]; [cbn [rbind]|reflexivity].
  inversion Hne as [|? ? H1 H2]; subst. destruct (tails_key (fst kv)) as [|c0 k0] eqn:Ek; [congruence|]. rewrite <- Ek. cbn [map app] in Hn.
  assert (Hni : ~ In (tails_key (fst kv)) (map fst done)).
  { intros Hin. apply in_split in Hin as (l1 & l2 & E). rewrite E, <- app_assoc in Hn. cbn [app] in Hn. apply NoDup_remove_2 in Hn. apply Hn. rewrite !in_app_iff. right. right. left. rewrite Ek. reflexivity. }
  rewrite set_new by exact Hni. rewrite IH.
  - destruct (rmap gstep entries) as [r|e]; [|reflexivity]. cbn [rbind]. rewrite <- app_assoc. reflexivity.
  - exact H2.
  - rewrite map_app, <- app_assoc. cbn [map fst app]. rewrite Ek. rewrite Ek in Hn. exact Hn.
Qed.
Lemma gstep_keys l r : rmap gstep l = Ok r -> map fst r = map (fun kv => tails_key (fst kv)) l.
Proof.
  revert r. induction l as [|kv l IH]; intros r H; [injection H as <-; reflexivity|]. cbn [rmap] in H. apply rbind_ok in H as (a & Ha & H). apply rbind_ok in H as (q & Hq & H). injection H as <-.
  unfold gstep in Ha. apply rbind_ok in Ha as (c & _ & Ha). injection Ha as <-. cbn. rewrite (IH q Hq). reflexivity.
Qed.
End Pass.
Lemma gpass_ext g g' l : (forall kv, In kv l -> g kv = g' kv) -> forall done, gpass g l done = gpass g' l done.
Proof. induction l as [|kv l IH]; intros H done; [reflexivity|]. cbn [gpass]. rewrite (H kv) by (left; reflexivity). destruct (g' kv); [|reflexivity]. cbn [rbind]. destruct (tails_key (fst kv)); [reflexivity|]. apply IH. intros; apply H; right; assumption. Qed.
(** keys that start with a *)
Definition a_key (kv : string * T) : bool := match fst kv with String c _ => Ascii.eqb c "a" | EmptyString => false end.
Lemma a_key_eq kv : a_key kv = true -> fst kv = String "a" (tails_key (fst kv)).
Proof. unfold a_key. destruct (fst kv) as [|c r]; [discriminate|]. intros H. apply Ascii.eqb_eq in H. subst c. reflexivity. Qed.
Lemma tails_nodup (l : list (string * T)) : NoDup (map fst l) -> Forall (fun kv => a_key kv = true) l -> NoDup (map (fun kv => tails_key (fst kv)) l).
Proof.
  induction l as [|kv l IH]; cbn; intros Hn HF; [constructor|]. inversion Hn as [|? ? Hni Hn']; subst. inversion HF as [|? ? H1 H2]; subst. constructor; [|apply IH; assumption].
  intros Hin. apply Hni. apply in_map_iff in Hin as (kv' & E & Hin). apply in_map_iff. exists kv'. split; [|exact Hin]. rewrite Forall_forall in H2. rewrite (a_key_eq kv H1), (a_key_eq kv' (H2 kv' Hin)), E. reflexivity.
Qed.
(** the pass over two orderings of the same dictionary *)
Lemma pass_re g n (d d' : sdict (K := K)) r : 1 <= n -> uniform n d -> NoDup (map fst d) -> Permutation d d' ->
  gpass g (filter a_key d) [] = Ok r ->
  match r with
  | inl t => gpass g (filter a_key d') [] = Ok (inl t)
  | inr e => exists e', gpass g (filter a_key d') [] = Ok (inr e') /\ Permutation e e' /\ NoDup (map fst e) /\ uniform (n - 1) e
  end.
Proof.
  intros H1 Hu Hn Hp H. pose proof (filter_perm a_key d d' Hp) as Hf. pose proof (filter_keys a_key d Hn) as Hfn.
  assert (Ha : forall kv, In kv (filter a_key d) -> a_key kv = true /\ String.length (fst kv) = n).
  { intros kv Hin. apply filter_In in Hin as [Hin Ha]. unfold uniform in Hu. rewrite Forall_forall in Hu. auto. }
  set (l := filter a_key d) in *. set (l' := filter a_key d') in *. destruct (Nat.eq_dec n 1) as [->|Hn1].
  - assert (E : l' = l).
    { assert (Hk : forall kv, In kv l -> fst kv = "a"%string). { intros kv Hin. destruct (Ha kv Hin) as [A1 A2]. rewrite (a_key_eq kv A1) in A2 |- *. cbn in A2. destruct (tails_key (fst kv)); [reflexivity|cbn in A2; lia]. }
      destruct l as [|a [|b q]]; [symmetry; apply Permutation_nil in Hf; symmetry; exact Hf|symmetry; apply Permutation_length_1_inv in Hf; symmetry; exact Hf|].
      exfalso. cbn in Hfn. rewrite (Hk a), (Hk b) in Hfn by (cbn; auto). inversion Hfn as [|? ? Hni _]; subst. apply Hni. left. reflexivity. }
    rewrite E. destruct r as [t|e]; [exact H|]. exists e. split; [exact H|]. split; [apply Permutation_refl|].
    destruct l as [|a q]; [injection H as <-; split; constructor|]. exfalso. cbn [gpass] in H. apply rbind_ok in H as (c & _ & H). destruct (Ha a ltac:(left; reflexivity)) as [A1 A2]. rewrite (a_key_eq a A1) in A2. cbn in A2.
    destruct (tails_key (fst a)); [discriminate|cbn in A2; lia].
  - assert (Hne : forall q, Permutation l q -> Forall (fun kv => tails_key (fst kv) <> EmptyString) q).
    { intros q Hq. apply Forall_forall. intros kv Hin. apply (Permutation_in _ (Permutation_sym Hq)) in Hin. destruct (Ha kv Hin) as [A1 A2]. rewrite (a_key_eq kv A1) in A2. cbn in A2. intros E. rewrite E in A2. cbn in A2. lia. }
    assert (Hak : forall q, Permutation l q -> Forall (fun kv => a_key kv = true) q) by (intros q Hq; apply Forall_forall; intros kv Hin; apply (Permutation_in _ (Permutation_sym Hq)) in Hin; apply Ha, Hin).
    assert (Hfn' : NoDup (map fst l')) by (eapply perm_keys; eauto).
    rewrite gpass_long in H by (first [apply (Hne _ (Permutation_refl _))|cbn [map app]; apply tails_nodup; [exact Hfn|apply (Hak _ (Permutation_refl _))]]).
    apply rbind_ok in H as (e & He & H). injection H as <-. cbn [app]. destruct (rmap_perm _ _ _ Hf _ He) as (e' & He' & Hpe). exists e'.
    rewrite gpass_long by (first [apply (Hne _ Hf)|cbn [map app]; apply tails_nodup; [exact Hfn'|apply (Hak _ Hf)]]). rewrite He'. cbn [rbind app]. split; [reflexivity|]. split; [exact Hpe|].
    pose proof (gstep_keys g l e He) as Ek. split; [rewrite Ek; apply tails_nodup; [exact Hfn|apply (Hak _ (Permutation_refl _))]|].
    unfold uniform. apply Forall_forall. intros kv Hin. apply (in_map fst) in Hin. rewrite Ek in Hin. apply in_map_iff in Hin as (kv' & <- & Hin). destruct (Ha kv' Hin) as [A1 A2]. rewrite (a_key_eq kv' A1) in A2. cbn in A2. lia.
Qed.

(** ** fswaverec2 / fswaverec3 *)
Definition sep_g (d : sdict (K := K)) (w : wavelet K) (kv : string * T) : result T :=
  match Sep.dict_get d (String "d" (tails_key (fst kv))) with Some cd => sep_idwt_pair w (String.length (fst kv)) (snd kv) cd | None => Raise KeyError end.
Lemma sep_loop_gpass (d : sdict (K := K)) w l : NoDup (map fst d) -> (forall kv, In kv l -> In kv d) -> forall done, sep_idwtn_loop d w (map fst l) done = gpass (sep_g d w) l done.
Proof.
  intros Hn. induction l as [|kv l IH]; intros Hin done; [reflexivity|]. cbn [map sep_idwtn_loop gpass]. unfold sep_g at 1. destruct (Sep.dict_get d (String "d" (tails_key (fst kv)))) as [cd|]; [|reflexivity].
  assert (E : Sep.dict_get d (fst kv) = Some (snd kv)) by (apply getS_in; [exact Hn|destruct kv; apply Hin; left; reflexivity]). rewrite E. destruct (sep_idwt_pair w _ _ _); [|reflexivity]. cbn [rbind].
  destruct (tails_key (fst kv)) eqn:Ek; [reflexivity|]. apply IH. intros; apply Hin; right; assumption.
Qed.
Lemma a_keys_uniform n (d : sdict (K := K)) : 1 <= n -> uniform n d -> a_keys d = Ok (map fst (filter a_key d)).
Proof.
  intros H1 Hu. unfold a_keys. assert (E : rmap (fun kv : string * T => let* b := Sep.starts_a (fst kv) in Ok (fst kv, b)) d = Ok (map (fun kv => (fst kv, a_key kv)) d)).
  { induction Hu as [|kv d Hk Hu IH]; [reflexivity|]. cbn [rmap map]. rewrite IH. unfold a_key. destruct (fst kv) as [|c k]; [cbn in Hk; lia|]. reflexivity. }
  rewrite E. cbn [rbind]. f_equal. clear E Hu. induction d as [|kv d IH]; [reflexivity|]. cbn. destruct (a_key kv); cbn; rewrite IH; reflexivity.
Qed.
Lemma sep_idwtn_re w fuel : forall n (d d' : sdict (K := K)) y, uniform n d -> NoDup (map fst d) -> Permutation d d' -> sep_idwtn fuel d w = Ok y -> sep_idwtn fuel d' w = Ok y.
Proof.
  induction fuel as [|fuel IH]; intros n d d' y Hu Hn Hp H; [discriminate|]. cbn [sep_idwtn] in H |- *. destruct (Nat.eq_dec n 0) as [->|Hn0].
  - destruct d as [|kv d]; [apply Permutation_nil in Hp; subst d'; exact H|]. exfalso. inversion Hu as [|? ? Hk _]; subst. destruct kv as [[|c k] v]; [|discriminate]. discriminate.
  - rewrite (a_keys_uniform n d) in H by (auto; lia). rewrite (a_keys_uniform n d') by (try lia; eapply perm_uniform; eauto). cbn [rbind] in H |- *.
    assert (Hn' : NoDup (map fst d')) by (eapply perm_keys; eauto).
    rewrite sep_loop_gpass in H by (auto; intros kv Hin; apply filter_In in Hin; apply Hin). rewrite sep_loop_gpass by (auto; intros kv Hin; apply filter_In in Hin; apply Hin).
    assert (Eg : forall l done, gpass (sep_g d' w) l done = gpass (sep_g d w) l done) by (intros l done; apply gpass_ext; intros kv _; unfold sep_g; rewrite (getS_re d d' _ Hn Hp); reflexivity). rewrite Eg.
    apply rbind_ok in H as (r & Hr & H). pose proof (pass_re (sep_g d w) n d d' r ltac:(lia) Hu Hn Hp Hr) as Q. destruct r as [t|e]; [rewrite Q; exact H|]. destruct Q as (e' & -> & P1 & P2 & P3). cbn [rbind]. apply (IH (n - 1) e e'); assumption.
Qed.
Lemma akey_len n : String.length (akey n) = n.
Proof. apply SepFacts.akey_length. Qed.
Definition dict_re (d d' : sdict (K := K)) : Prop := NoDup (map fst d) /\ Permutation d d' /\ exists n, uniform n d.
Lemma uniform_max n (d : sdict (K := K)) m : uniform n d -> max_key d = Ok m -> m = n.
Proof.
  intros Hu H. destruct d as [|kv d]; [discriminate|]. injection H as <-. change (fold_right Nat.max 0 (map (fun kv => String.length (fst kv)) (kv :: d)) = n). inversion Hu as [|? ? Hk Hu']; subst. cbn [map fold_right].
  assert (fold_right Nat.max 0 (map (fun kv0 : string * T => String.length (fst kv0)) d) <= String.length (fst kv)); [|lia]. clear -Hu'. induction Hu' as [|x d Hx _ IH]; cbn; lia.
Qed.
Lemma sep_rec_re w ds ds' : Forall2 dict_re ds ds' -> forall a y, fst (sep_rec_loop w a ds) = Ok y -> fst (sep_rec_loop w a ds') = Ok y.
Proof.
  induction 1 as [|d d' ds ds' (Hn & Hp & n & Hu) HF IH]; intros a y H; [exact H|]. cbn [sep_rec_loop] in H |- *. rewrite (max_re d d' Hp). destruct (max_key d) as [m|e] eqn:Em; [|discriminate].
  pose proof (uniform_max n d m Hu Em) as ->.
  destruct (sep_idwtn (S n) (dict_set d (akey n) a) w) as [u|e] eqn:Es; [|discriminate].
  rewrite (sep_idwtn_re w (S n) n (dict_set d (akey n) a) (dict_set d' (akey n) a) u) by (auto using set_nodup, set_re, set_uniform, akey_len).
  specialize (IH u y). destruct (sep_rec_loop w u ds) as [r l], (sep_rec_loop w u ds') as [r' l']. apply IH, H.
Qed.
Lemma rel_uniform f (v v1 : pyval K) : map_element f v = Ok v1 -> uniform_keys v -> uniform_keys v1.
Proof.
  destruct v as [t|[|a [|b [|c l]]]|d|]; cbn; intros H Hu; try discriminate; repeat (apply rbind_ok in H as (? & ? & H)); try discriminate; try (injection H as <-; exact I).
  injection H as <-. cbn. destruct Hu as (n & Hu). exists n. apply map_dict_keys in H0. rewrite Forall_forall in *. intros kv Hin. apply (in_map fst) in Hin. rewrite H0 in Hin. apply in_map_iff in Hin as (kv' & <- & Hin). apply Hu, Hin.
Qed.
Lemma rmap_uniform f l r : rmap (map_element f) l = Ok r -> Forall uniform_keys l -> Forall (uniform_keys (K := K)) r.
Proof.
  intros H Hu. revert r H. induction Hu as [|v l Hv Hu IH]; intros r H; [injection H as <-; constructor|]. cbn [rmap] in H. apply rbind_ok in H as (a & Ha & H). apply rbind_ok in H as (q & Hq & H). injection H as <-. constructor; [eapply rel_uniform; eauto|apply IH, Hq].
Qed.
Lemma tree_uniform f c c1 : coeff_tree_map c f = Ok c1 -> Forall (uniform_keys (K := K)) (pc_items c) -> Forall uniform_keys (pc_items c1).
Proof.
  unfold coeff_tree_map. destruct (pc_items c) as [|[t| | |] rest]; try discriminate. intros H Hu. inversion Hu as [|? ? _ Hu']; subst. apply rbind_ok in H as (a & Ha & H). apply rbind_ok in H as (r & Hr & H). pose proof (rmap_uniform f rest r Hr Hu') as Q.
  destruct r as [|[| | |] r]; injection H as <-; cbn [pc_items]; constructor; try exact I; exact Q.
Qed.
Lemma preprocess_uniform n h ac c c1 ds : preprocess_coeffs c n h ac = Ok (c1, ds) -> Forall (uniform_keys (K := K)) (pc_items c) -> Forall uniform_keys (pc_items c1).
Proof.
  intros H Hu. unfold preprocess_coeffs in H. destruct (n <=? 0); [discriminate|]. destruct (pc_items c) as [|v rest] eqn:Ec; [discriminate|]. rewrite <- Ec in Hu. apply rbind_ok in H as (t0 & _ & H). destruct (negb _); [discriminate|].
  apply rbind_ok in H as (ax & _ & H). apply rbind_ok in H as (dax & _ & H). apply rbind_ok in H as (c' & Hc & H).
  assert (U1 : Forall uniform_keys (pc_items c')) by (destruct (list_eqb Z.eqb ax dax); [injection Hc as <-; exact Hu|eapply tree_uniform; eauto]).
  destruct (pc_items c') as [|[t1| | |] r1] eqn:Ec'; try discriminate. rewrite <- Ec' in U1. apply rbind_ok in H as (c2 & Hc2 & H). apply rbind_ok in H as (c3 & Hc3 & H). injection H as <- _.
  assert (U2 : Forall uniform_keys (pc_items c2)). { destruct (_ <? n); [discriminate|]. destruct (_ =? n); [eapply tree_uniform; eauto|]. destruct (n + 1 <? _); [eapply tree_uniform; eauto|]. injection Hc2 as <-. exact U1. }
  destruct ac; [eapply tree_uniform; eauto|]. injection Hc3 as <-. exact U2.
Qed.
Lemma as_dict_re l l' ds : Forall2 reordered l l' -> Forall (uniform_keys (K := K)) l -> rmap as_dict l = Ok ds -> exists ds', rmap as_dict l' = Ok ds' /\ Forall2 dict_re ds ds'.
Proof.
  intros HF. revert ds. induction HF as [|v v' l l' Hv HF IH]; intros ds Hu H; [exists ds; split; [exact H|injection H as <-; constructor]|]. cbn [rmap] in H |- *. apply rbind_ok in H as (a & Ha & H). apply rbind_ok in H as (q & Hq & H). injection H as <-.
  inversion Hu as [|? ? U1 U2]; subst. destruct Hv as [u Hv|d d' Hn Hp]; [exfalso; destruct u; try discriminate; eapply Hv; reflexivity|]. injection Ha as <-. cbn [as_dict rbind]. destruct (IH q U2 Hq) as (q' & -> & HR). cbn [rbind]. eexists. split; [reflexivity|].
  constructor; [|exact HR]. split; [exact Hn|]. split; [exact Hp|]. exact U1.
Qed.
Theorem C74_fswaverec b (items items' : list (pyval K)) w n axes y : Forall2 reordered items items' -> Forall uniform_keys items ->
  fswaverecn (mkPC b items) w n axes = Ok y -> fswaverecn (mkPC b items') w n axes = Ok y.
Proof.
  intros HF Hu H. unfold fswaverecn, fswaverecn_eff in *. destruct (preprocess_coeffs (mkPC b items) n axes false) as [[c ds]|e] eqn:Hpp; [|discriminate].
  pose proof (preprocess_uniform _ _ _ _ _ _ Hpp Hu) as U. destruct (preprocess_re _ _ _ _ _ _ _ _ HF Hpp) as (l1 & -> & HR).
  destruct c as [cb ci]. cbn [pc_items pc_is_list] in *. destruct (check_same_device_dtype (mkPC cb ci)) as [g|e] eqn:Hg; [|discriminate]. rewrite (check_re _ _ _ _ HR Hg).
  unfold sep_waverecn in *. cbn [pc_items pc_is_list] in *. inversion HR as [|v v' l l' Hv HR']; subst; [discriminate|]. destruct v as [a| | |]; try discriminate. inversion Hv; subst.
  inversion U as [|? ? _ U']; subst. destruct (rmap as_dict l) as [dd|e] eqn:Ed; [|discriminate]. destruct (as_dict_re l l' dd HR' U' Ed) as (dd' & -> & HD).
  pose proof (sep_rec_re w dd dd' HD a) as Q. destruct (sep_rec_loop w a dd) as [r q], (sep_rec_loop w a dd') as [r' q']. cbn [fst] in *. apply rbind_ok in H as (u & -> & H). rewrite (Q u eq_refl). exact H.
Qed.

(** ** MatrixWaverec3 *)
Lemma starts_a_key (kv : string * T) : MatN.starts_a (fst kv) = a_key kv.
Proof. unfold MatN.starts_a, a_key. destruct (fst kv) as [|[[] [] [] [] [] [] [] []] r]; reflexivity. Qed.
Lemma cat_gpass (d : sdict (K := K)) l : forall done, cat_pass d l done = gpass (cat_pair d) l done.
Proof. induction l as [|kv l IH]; intros done; [reflexivity|]. cbn [cat_pass gpass]. destruct (cat_pair d kv); [|reflexivity]. cbn [rbind]. change (str_tl (fst kv)) with (tails_key (fst kv)). destruct (tails_key (fst kv)); [reflexivity|]. apply IH. Qed.
Lemma filter_ext_a (d : sdict (K := K)) : filter (fun kv => MatN.starts_a (fst kv)) d = filter a_key d.
Proof. apply filter_ext. intros kv. apply starts_a_key. Qed.
Lemma cat_re fuel : forall n (d d' : sdict (K := K)) y, uniform n d -> NoDup (map fst d) -> Permutation d d' -> cat_coeff_recursive fuel d = Ok y -> cat_coeff_recursive fuel d' = Ok y.
Proof.
  induction fuel as [|fuel IH]; intros n d d' y Hu Hn Hp H; [discriminate|]. cbn [cat_coeff_recursive] in H |- *. unfold no_empty_key in *. rewrite (forallb_re _ _ _ Hp). 
  destruct (forallb _ d) eqn:Ef; [|discriminate]. cbn [negb] in *. rewrite filter_ext_a, cat_gpass in H |- *.
  destruct (Nat.eq_dec n 0) as [->|Hn0].
  - destruct d as [|kv d]; [apply Permutation_nil in Hp; subst d'; exact H|]. exfalso. inversion Hu as [|? ? Hk _]; subst. destruct kv as [[|c k] v]; discriminate.
  - assert (Eg : forall l done, gpass (cat_pair d') l done = gpass (cat_pair d) l done) by (intros l done; apply gpass_ext; intros kv _; unfold cat_pair; rewrite (getS_re d d' _ Hn Hp); reflexivity). rewrite Eg.
    apply rbind_ok in H as (r & Hr & H). pose proof (pass_re (cat_pair d) n d d' r ltac:(lia) Hu Hn Hp Hr) as Q. destruct r as [t|e]; [rewrite Q; exact H|]. destruct Q as (e' & -> & P1 & P2 & P3). cbn [rbind]. apply (IH (n - 1) e e'); assumption.
Qed.
Definition same_shape (d : sdict (K := K)) : bool := match d with [] => true | kv :: d' => forallb (fun c => list_eqb Nat.eqb (shp (snd c)) (shp (snd kv))) d' end.
Lemma nats_eqb l : forall l', list_eqb Nat.eqb l l' = true <-> l = l'.
Proof.
  induction l as [|a l IH]; intros [|a' l']; cbn; try (split; congruence). rewrite andb_true_iff, Nat.eqb_eq, IH. split; [intros [-> ->]; reflexivity|intros E; injection E; auto].
Qed.
Lemma same_shape_iff d : same_shape d = true <-> forall a b, In a d -> In b d -> shp (snd a) = shp (snd b).
Proof.
  destruct d as [|kv d]; cbn [same_shape]; [split; [intros _ a b []|reflexivity]|]. rewrite forallb_forall. split.
  - intros H a b Ha Hb. assert (E : forall c, In c (kv :: d) -> shp (snd c) = shp (snd kv)) by (intros c [<-|Hc]; [reflexivity|apply nats_eqb, H, Hc]). rewrite (E a Ha), (E b Hb). reflexivity.
  - intros H c Hc. apply nats_eqb. apply H; [right; exact Hc|left; reflexivity].
Qed.
Lemma same_shape_re d d' : Permutation d d' -> same_shape d' = same_shape d.
Proof.
  intros Hp. assert (Q : forall e e', Permutation e e' -> same_shape e = true -> same_shape e' = true).
  { intros e e' He H. rewrite same_shape_iff in *. intros a b Ha Hb. apply H; eapply Permutation_in; try apply Permutation_sym, He; assumption. }
  destruct (same_shape d) eqn:E; [eapply Q; eauto|]. destruct (same_shape d') eqn:E'; [|reflexivity]. rewrite (Q d' d (Permutation_sym Hp) E') in E. discriminate.
Qed.
(** three-letter keys *)
Definition keys_of_3 (v : pyval K) : Prop := match v with PDict d => Forall (fun kv => String.length (fst kv) = 3) d | _ => True end.
Lemma mr3_loop_re his his' : Forall2 reordered his his' -> Forall keys_of_3 his -> forall rmats lll y, fst (mr3_loop rmats lll his) = Ok y -> fst (mr3_loop rmats lll his') = Ok y.
Proof.
  induction 1 as [|v v' his his' Hv HF IH]; intros Hu rmats lll y H; [exact H|]. inversion Hu as [|? ? U1 U2]; subst. cbn [mr3_loop] in H |- *.
  destruct Hv as [u Hv|d d' Hn Hp]; [exfalso; destruct u; try discriminate; eapply Hv; reflexivity|]. rewrite <- (Permutation_length Hp). destruct (negb (List.length d =? 7)); [discriminate|].
  fold (same_shape d) in H. fold (same_shape d'). rewrite (same_shape_re d d' Hp). destruct (negb (same_shape d)); [discriminate|].
  destruct (cat_coeff_recursive rec_limit (dict_set d "aaa" lll)) as [c|e] eqn:Ec; [|discriminate].
  rewrite (cat_re rec_limit 3 (dict_set d "aaa" lll) (dict_set d' "aaa" lll) c) by (auto using set_nodup, set_re, set_uniform). cbn [rbind] in *.
  destruct rmats as [|[s_|] rmats]; try discriminate. destruct (mats_dims (rev s_) c 1) as [u|e]; [|discriminate]. cbn [rbind] in *.
  specialize (IH U2 rmats u y). destruct (mr3_loop rmats u his) as [r l], (mr3_loop rmats u his') as [r' l']. apply IH, H.
Qed.
Lemma rel_keys3 f (v v1 : pyval K) : map_element f v = Ok v1 -> keys_of_3 v -> keys_of_3 v1.
Proof.
  destruct v as [t|[|a [|b [|c l]]]|d|]; cbn; intros H Hu; try discriminate; repeat (apply rbind_ok in H as (? & ? & H)); try discriminate; try (injection H as <-; exact I).
  injection H as <-. cbn. apply map_dict_keys in H0. rewrite Forall_forall in *. intros kv Hin. apply (in_map fst) in Hin. rewrite H0 in Hin. apply in_map_iff in Hin as (kv' & <- & Hin). apply Hu, Hin.
Qed.
Lemma tree_keys3 f c c1 : coeff_tree_map c f = Ok c1 -> Forall keys_of_3 (pc_items c) -> Forall keys_of_3 (pc_items c1).
Proof.
  unfold coeff_tree_map. destruct (pc_items c) as [|[t| | |] rest]; try discriminate. intros H Hu. inversion Hu as [|? ? _ Hu']; subst. apply rbind_ok in H as (a & Ha & H). apply rbind_ok in H as (r & Hr & H).
  assert (Q : Forall keys_of_3 r).
  { clear H Ha Hu. revert r Hr. induction Hu' as [|v l Hv Hu IH]; intros r H; [injection H as <-; constructor|]. cbn [rmap] in H. apply rbind_ok in H as (a1 & Ha & H). apply rbind_ok in H as (q & Hq & H). injection H as <-. constructor; [eapply rel_keys3; eauto|apply IH, Hq]. }
  destruct r as [|[| | |] r]; injection H as <-; cbn [pc_items]; constructor; try exact I; exact Q.
Qed.
Lemma preprocess_keys3 n h ac c c1 ds : preprocess_coeffs c n h ac = Ok (c1, ds) -> Forall keys_of_3 (pc_items c) -> Forall keys_of_3 (pc_items c1).
Proof.
  intros H Hu. unfold preprocess_coeffs in H. destruct (n <=? 0); [discriminate|]. destruct (pc_items c) as [|v rest] eqn:Ec; [discriminate|]. rewrite <- Ec in Hu. apply rbind_ok in H as (t0 & _ & H). destruct (negb _); [discriminate|].
  apply rbind_ok in H as (ax & _ & H). apply rbind_ok in H as (dax & _ & H). apply rbind_ok in H as (c' & Hc & H).
  assert (U1 : Forall keys_of_3 (pc_items c')) by (destruct (list_eqb Z.eqb ax dax); [injection Hc as <-; exact Hu|eapply tree_keys3; eauto]).
  destruct (pc_items c') as [|[t1| | |] r1] eqn:Ec'; try discriminate. rewrite <- Ec' in U1. apply rbind_ok in H as (c2 & Hc2 & H). apply rbind_ok in H as (c3 & Hc3 & H). injection H as <- _.
  assert (U2 : Forall keys_of_3 (pc_items c2)). { destruct (_ <? n); [discriminate|]. destruct (_ =? n); [eapply tree_keys3; eauto|]. destruct (n + 1 <? _); [eapply tree_keys3; eauto|]. injection Hc2 as <-. exact U1. }
  destruct ac; [eapply tree_keys3; eauto|]. injection Hc3 as <-. exact U2.
Qed.
Lemma last_re (l l' : list (pyval K)) : Forall2 reordered l l' -> reordered (last l POther) (last l' POther).
Proof.
  induction 1 as [|v v' l l' Hv HF IH]; [apply reo_same; discriminate|]. cbn [last]. inversion HF; subst; [exact Hv|exact IH].
Qed.
Theorem C74_matrix_3d LA r (items items' : list (pyval K)) y : Forall2 reordered items items' -> Forall keys_of_3 items ->
  snd (fst (mr3_call LA r items)) = Ok y -> fst (mr3_call LA r items') = fst (mr3_call LA r items).
Proof.
  intros HF Hu H. unfold mr3_call in *.
  destruct (preprocess_coeffs (mkPC false items) 3 (AxSeq (rn_axes r)) false) as [[c ds]|e] eqn:Hpp; [|discriminate].
  pose proof (preprocess_keys3 _ _ _ _ _ _ Hpp Hu) as U. destruct (preprocess_re _ _ _ _ _ _ _ _ HF Hpp) as (l1 & -> & HR).
  destruct c as [cb ci]. cbn [rbind fst snd pc_items pc_is_list] in *. destruct (check_same_device_dtype (mkPC cb ci)) as [g|e] eqn:Hg; [|discriminate]. rewrite (check_re _ _ _ _ HR Hg). cbn [rbind] in *.
  pose proof (last_re _ _ HR) as Hla.
  assert (E : match last l1 POther with PDict d => match Sep.dict_get d "ddd" with Some t => Ok (skipn (rank t - 3) (shp t)) | None => Raise KeyError end | _ => Raise ValueError end =
              match last ci POther with PDict d => match Sep.dict_get d "ddd" with Some t => Ok (skipn (rank t - 3) (shp t)) | None => Raise KeyError end | _ => Raise ValueError end).
  { destruct Hla as [v Hv|d d' Hn Hp]; [reflexivity|]. rewrite (getS_re d d' _ Hn Hp). reflexivity. }
  rewrite E. clear E. destruct (match last ci POther with PDict d => _ | _ => _ end) as [hs0|e]; [|discriminate]. cbn [rbind] in *.
  destruct (unpack 3 hs0) as [hs|e]; [|discriminate]. cbn [rbind] in *. assert (El : List.length l1 = List.length ci) by (symmetry; clear -HR; induction HR; cbn; congruence). rewrite El.
  destruct (prepare_rec_n LA r (map (fun n => n * 2) hs) (List.length ci - 1) g) as [r' err]. destruct err as [e|]; [discriminate|].
  inversion HR as [|v v' l l' Hv HR']; subst; [discriminate|]. destruct v as [a| | |]; try discriminate. inversion Hv; subst. inversion U as [|? ? _ U']; subst.
  match goal with |- context [mr3_loop ?rm a l'] => pose proof (mr3_loop_re l l' HR' U' rm a) as Q; destruct (mr3_loop rm a l) as [q e1], (mr3_loop rm a l') as [q' e1'] end.
  cbn [fst snd] in *. apply rbind_ok in H as (u & -> & H). rewrite (Q u eq_refl). reflexivity.
Qed.
End D.
