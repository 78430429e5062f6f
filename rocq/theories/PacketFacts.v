(** Generic facts about the packet objects of [Packets]. *)
From Coq Require Import List Arith ZArith Lia Bool String Ascii.
From Verif Require Import Base Tensor Util Packets SpecPk.
Import ListNotations.

Lemma key_eqb_spec a b : reflect (a = b) (key_eqb a b).
Proof.
  unfold key_eqb. revert b; induction a as [|x a IH]; intros [|y b]; cbn; try (constructor; congruence).
  destruct (Ascii.eqb_spec x y); cbn; [|constructor; congruence]. destruct (IH b); constructor; congruence.
Qed.
Arguments key_eqb : simpl never.
Arguments memc : simpl never.
Section KD.
Context {A : Type}.
Implicit Types d : kdict A.
Lemma kget_kset_eq d k v : kget (kset d k v) k = Some v.
Proof.
  induction d as [|[k' v'] d IH]; cbn.
  - destruct (key_eqb_spec k k); congruence.
  - destruct (key_eqb_spec k' k); cbn.
    + destruct (key_eqb_spec k' k); congruence.
    + destruct (key_eqb_spec k' k); [congruence|exact IH].
Qed.
Lemma kget_kset_ne d k v q : q <> k -> kget (kset d k v) q = kget d q.
Proof.
  intros Hq. induction d as [|[k' v'] d IH]; cbn.
  - destruct (key_eqb_spec k q); congruence.
  - destruct (key_eqb_spec k' k); cbn.
    + destruct (key_eqb_spec k' q); congruence.
    + destruct (key_eqb_spec k' q); [reflexivity|exact IH].
Qed.
Lemma kget_kset d k v q : kget (kset d k v) q = if key_eqb k q then Some v else kget d q.
Proof. destruct (key_eqb_spec k q) as [<-|]; [apply kget_kset_eq|apply kget_kset_ne; congruence]. Qed.
End KD.

Lemma memc_In c l : memc c l = true <-> In c l.
Proof. unfold memc. rewrite existsb_exists. split; [intros (x & Hx & E); apply Ascii.eqb_eq in E; congruence|intros H; exists c; split; [exact H|apply Ascii.eqb_refl]]. Qed.
Lemma app_last_inj {A} (p q : list A) a b : p ++ [a] = q ++ [b] -> p = q /\ a = b.
Proof. apply app_inj_tail. Qed.
Lemma child_some {A} letters (ch : list A) c : List.length ch = List.length letters -> In c letters -> exists v, child letters ch c = Some v /\ In v ch.
Proof.
  revert ch; induction letters as [|l ls IH]; intros [|v vs] Hl Hin; cbn in *; try lia.
  destruct Hin as [E|Hin].
  - subst l. rewrite Ascii.eqb_refl. eauto.
  - destruct (Ascii.eqb l c); [eauto|]. destruct (IH vs ltac:(lia) Hin) as (u & H1 & H2). eauto.
Qed.
Lemma child_in {A} letters (ch : list A) c v : child letters ch c = Some v -> In v ch /\ In c letters.
Proof.
  revert ch; induction letters as [|l ls IH]; intros [|u us]; cbn; try discriminate.
  destruct (Ascii.eqb_spec l c); [intros [= <-]; subst; auto|]. intros H. apply IH in H as [A1 A2]; auto.
Qed.
Lemma child_nil {A} letters c : child letters (@nil A) c = None.
Proof. destruct letters; reflexivity. Qed.
Lemma child_list {A} letters (ch : list A) : NoDup letters -> List.length ch = List.length letters ->
  map (child letters ch) letters = map Some ch.
Proof.
  revert ch; induction letters as [|l ls IH]; intros [|v vs] Hn Hl; cbn in *; try lia; [reflexivity|].
  apply NoDup_cons_iff in Hn as [Hni Hn]. rewrite Ascii.eqb_refl. f_equal. rewrite <- (IH vs Hn ltac:(lia)). apply map_ext_in. intros c Hc.
  destruct (Ascii.eqb_spec l c); [subst; contradiction|reflexivity].
Qed.

Lemma rmap_in_ok {X Y} (F : X -> result Y) l ys a : rmap F l = Ok ys -> In a l -> exists y, F a = Ok y.
Proof.
  revert ys; induction l as [|b l IH]; intros ys E Ha; [destruct Ha|]. cbn in E. destruct (F b) as [u|] eqn:Eu; [|discriminate]. cbn in E.
  destruct (rmap F l) as [us|] eqn:Er; [|discriminate]. destruct Ha as [<-|Ha]; [eauto|]. eapply IH; eauto.
Qed.
Section PF.
Context {K : CRing} (B : backend K).
Implicit Types (s : packet B) (k p q : key) (v t : tensor K).

Lemma kget_children d path letters ch q : NoDup letters -> @kget (tensor K) (set_children d path letters ch) q =
  match rev q with
  | c :: up => if key_eqb (rev up) path then match child letters ch c with Some v => Some v | None => kget d q end else kget d q
  | [] => kget d q
  end.
Proof.
  revert d ch; induction letters as [|l ls IH]; intros d ch Hn.
  - cbn. destruct (rev q) as [|c up]; [reflexivity|]. destruct (key_eqb (rev up) path); reflexivity.
  - apply NoDup_cons_iff in Hn as [Hni Hn]. destruct ch as [|v vs]; cbn.
    + destruct (rev q) as [|c up]; [reflexivity|]. destruct (key_eqb (rev up) path); reflexivity.
    + rewrite IH by exact Hn. destruct (rev q) as [|c up] eqn:Eq.
      * apply kget_kset_ne. intros ->. rewrite rev_app_distr in Eq. discriminate.
      * assert (Hq : q = rev up ++ [c]) by (rewrite <- (rev_involutive q), Eq; reflexivity).
        destruct (key_eqb_spec (rev up) path) as [E|E].
        -- destruct (Ascii.eqb_spec l c) as [->|Hc].
           ++ destruct (child ls vs c) as [u|] eqn:Eu; [apply child_in in Eu as [_ Hin]; contradiction|].
              rewrite Hq, E. apply kget_kset_eq.
           ++ destruct (child ls vs c) as [u|] eqn:Eu; [reflexivity|]. apply kget_kset_ne. rewrite Hq, E. intros H. apply app_last_inj in H as [_ H]. congruence.
        -- apply kget_kset_ne. rewrite Hq. intros H. apply app_last_inj in H as [H _]. congruence.
Qed.
Lemma kget_children_at d path letters ch c : NoDup letters ->
  @kget (tensor K) (set_children d path letters ch) (path ++ [c]) = match child letters ch c with Some v => Some v | None => kget d (path ++ [c]) end.
Proof. intros Hn. rewrite kget_children by exact Hn. rewrite rev_app_distr. cbn. rewrite rev_involutive. destruct (key_eqb_spec path path); [reflexivity|congruence]. Qed.
Lemma kget_children_other d path letters ch q : NoDup letters -> (forall c, In c letters -> q <> path ++ [c]) ->
  @kget (tensor K) (set_children d path letters ch) q = kget d q.
Proof.
  intros Hn Hq. rewrite kget_children by exact Hn. destruct (rev q) as [|c up] eqn:E; [reflexivity|].
  assert (Eq : q = rev up ++ [c]) by (rewrite <- (rev_involutive q), E; reflexivity).
  destruct (key_eqb_spec (rev up) path) as [Ep|]; [|reflexivity]. destruct (child letters ch c) as [u|] eqn:Eu; [|reflexivity].
  apply child_in in Eu as [_ Hin]. exfalso. apply (Hq c Hin). congruence.
Qed.

(** unfolding of a read *)
Lemma pk_get_none s k : p_max s = None -> pk_get B s k = (s, Raise ValueError).
Proof. unfold pk_get. destruct (rev k); cbn; intros ->; reflexivity. Qed.
Lemma pk_get_present s k m v : p_max s = Some m -> kget (p_data s) k = Some v -> pk_get B s k = (s, Ok v).
Proof. intros Hm Hk. unfold pk_get. rewrite <- (rev_involutive k) in Hk. destruct (rev k) as [|c up] eqn:E; cbn [pk_get_rev]; rewrite Hm, Hk; reflexivity. Qed.
Lemma pk_get_long s k m : p_max s = Some m -> kget (p_data s) k = None -> (m < Z.of_nat (List.length k))%Z -> pk_get B s k = (s, Raise KeyError).
Proof.
  intros Hm Hk Hl. unfold pk_get. rewrite <- (rev_involutive k) in Hk. rewrite <- (rev_length k) in Hl.
  destruct (rev k) as [|c up]; cbn [pk_get_rev]; rewrite Hm, Hk; (replace (m <? _)%Z with true by (symmetry; apply Z.ltb_lt; exact Hl)); reflexivity.
Qed.
Lemma pk_get_root_missing s m : p_max s = Some m -> kget (p_data s) [] = None -> (0 <= m)%Z -> pk_get B s [] = (s, Raise ValueError).
Proof. intros Hm Hk Hl. cbn. rewrite Hm, Hk. replace (m <? 0)%Z with false by (symmetry; apply Z.ltb_ge; exact Hl). reflexivity. Qed.
Lemma pk_get_foreign s p c m : p_max s = Some m -> kget (p_data s) (p ++ [c]) = None -> (Z.of_nat (S (List.length p)) <= m)%Z ->
  ~ In c (be_letters B) -> pk_get B s (p ++ [c]) = (s, Raise ValueError).
Proof.
  intros Hm Hk Hl Hc. unfold pk_get. rewrite rev_app_distr. cbn [rev app pk_get_rev List.length]. rewrite Hm, rev_involutive, Hk, rev_length.
  replace (m <? _)%Z with false by (symmetry; apply Z.ltb_ge; exact Hl).
  destruct (memc c (be_letters B)) eqn:E; [apply memc_In in E; contradiction|reflexivity].
Qed.
Lemma pk_get_step s p c m : p_max s = Some m -> kget (p_data s) (p ++ [c]) = None -> (Z.of_nat (S (List.length p)) <= m)%Z ->
  In c (be_letters B) -> pk_get B s (p ++ [c]) =
    let '(s1, r) := pk_get B s p in
    match r with
    | Raise e => (s1, Raise e)
    | Ok data =>
        let '(b, rch) := be_dec B (p_be s1) data in
        match rch with
        | Raise e => (mkP (p_data s1) (p_max s1) b, Raise e)
        | Ok ch =>
            let d := set_children (p_data s1) p (be_letters B) ch in
            (mkP d (p_max s1) b, match kget d (p ++ [c]) with Some v => Ok v | None => Raise KeyError end)
        end
    end.
Proof.
  intros Hm Hk Hl Hc. unfold pk_get at 1. rewrite rev_app_distr. cbn [rev app pk_get_rev List.length]. rewrite Hm, rev_involutive, Hk, rev_length.
  replace (m <? _)%Z with false by (symmetry; apply Z.ltb_ge; exact Hl).
  rewrite (proj2 (memc_In c (be_letters B)) Hc). unfold pk_get. reflexivity.
Qed.
Lemma key_ind_last (P : key -> Prop) : P [] -> (forall p c, P p -> P (p ++ [c])) -> forall k, P k.
Proof. intros H0 H1 k. induction k as [|c k IH] using rev_ind; auto. Qed.

(** a node that was read is stored *)
Lemma get_ok_stored k s v : snd (pk_get B s k) = Ok v -> kget (p_data (fst (pk_get B s k))) k = Some v.
Proof.
  destruct (p_max s) as [m|] eqn:Em; [|rewrite (pk_get_none s k Em); discriminate].
  destruct (kget (p_data s) k) as [u|] eqn:Ek; [rewrite (pk_get_present s k m u Em Ek); cbn; congruence|].
  destruct (Z_le_gt_dec (Z.of_nat (List.length k)) m) as [Hle|Hgt]; [|rewrite (pk_get_long s k m Em Ek) by lia; discriminate].
  destruct (rev k) as [|c up] eqn:E.
  - assert (k = []) as -> by (rewrite <- (rev_involutive k), E; reflexivity). cbn in Hle. rewrite (pk_get_root_missing s m Em Ek Hle). discriminate.
  - assert (Eq : k = rev up ++ [c]) by (rewrite <- (rev_involutive k), E; reflexivity). rewrite Eq in *. rewrite app_length in Hle. cbn in Hle.
    destruct (in_dec ascii_dec c (be_letters B)) as [Hc|Hc]; [|rewrite (pk_get_foreign s _ c m Em Ek) by (auto; lia); discriminate].
    rewrite (pk_get_step s _ c m Em Ek) by (auto; lia). destruct (pk_get B s (rev up)) as [s1 [data|e]]; [|discriminate].
    destruct (be_dec B (p_be s1) data) as [b [ch|e]]; [|discriminate]. cbn. destruct (kget (set_children _ _ _ _) (rev up ++ [c])); congruence.
Qed.

(** ** reads never change the level, never remove anything and never overwrite a member of a complete family *)
Definition present s k : Prop := kget (p_data s) k <> None.
Lemma present_some s k : present s k <-> exists v, kget (p_data s) k = Some v.
Proof. unfold present. destruct (kget (p_data s) k); split; intros; eauto; try congruence. destruct H as [v H]; discriminate. Qed.

Definition grows (d d' : kdict (tensor K)) : Prop := forall q, kget d q <> None -> kget d' q <> None.
(** every sibling of k (k itself included) is stored; the root is alone *)
Definition family_complete s k : Prop :=
  match rev k with [] => True | _ :: up => forall c, In c (be_letters B) -> present s (rev up ++ [c]) end.

Hypothesis letters_nodup : NoDup (be_letters B).

Lemma get_effect k : forall s,
  p_max (fst (pk_get B s k)) = p_max s /\ grows (p_data s) (p_data (fst (pk_get B s k))) /\
  forall q, present s q -> family_complete s q -> kget (p_data (fst (pk_get B s k))) q = kget (p_data s) q.
Proof.
  induction k as [|p c IH] using key_ind_last; intros s.
  - destruct (p_max s) as [m|] eqn:Em.
    + destruct (kget (p_data s) []) as [v|] eqn:Ek.
      * rewrite (pk_get_present s [] m v Em Ek). cbn. repeat split; auto. intros q Hq; exact Hq.
      * cbn. rewrite Em, Ek. destruct (m <? 0)%Z; cbn; (repeat split; auto; intros q Hq; exact Hq).
    + rewrite (pk_get_none s [] Em). cbn. repeat split; auto. intros q Hq; exact Hq.
  - destruct (p_max s) as [m|] eqn:Em; [|rewrite (pk_get_none s _ Em); cbn; repeat split; auto; intros q Hq; exact Hq].
    destruct (kget (p_data s) (p ++ [c])) as [v|] eqn:Ek; [rewrite (pk_get_present s _ m v Em Ek); cbn; repeat split; auto; intros q Hq; exact Hq|].
    destruct (Z_le_gt_dec (Z.of_nat (S (List.length p))) m) as [Hle|Hgt].
    2:{ rewrite (pk_get_long s _ m Em Ek) by (rewrite app_length; cbn; lia). cbn. repeat split; auto; intros q Hq; exact Hq. }
    destruct (in_dec ascii_dec c (be_letters B)) as [Hc|Hc]; [|rewrite (pk_get_foreign s p c m Em Ek Hle Hc); cbn; repeat split; auto; intros q Hq; exact Hq].
    rewrite (pk_get_step s p c m Em Ek Hle Hc). specialize (IH s). destruct (pk_get B s p) as [s1 r]. cbn [fst] in IH.
    destruct IH as (I1 & I2 & I3). rewrite Em in I1. destruct r as [data|e]; [|cbn; rewrite I1; auto].
    destruct (be_dec B (p_be s1) data) as [b rch]. destruct rch as [ch|e]; cbn; [|auto].
    split; [exact I1|]. split.
    + intros q Hq. specialize (I2 q Hq). rewrite kget_children by exact letters_nodup. destruct (rev q) as [|c' up]; [exact I2|].
      destruct (key_eqb _ _); [|exact I2]. destruct (child _ _ _); [discriminate|exact I2].
    + intros q Hq Hf. rewrite <- (I3 q Hq Hf). apply kget_children_other; [exact letters_nodup|]. intros c' Hc' ->.
      unfold family_complete in Hf. rewrite rev_app_distr in Hf. cbn in Hf. rewrite rev_involutive in Hf. specialize (Hf c Hc). unfold present in Hf. congruence.
Qed.
Lemma family_grows s s' k : grows (p_data s) (p_data s') -> family_complete s k -> family_complete s' k.
Proof. intros Hg. unfold family_complete. destruct (rev k); [auto|]. intros H c Hc. apply Hg. apply H, Hc. Qed.
Lemma init_effect l : forall s,
  p_max (fst (pk_init B s l)) = p_max s /\ grows (p_data s) (p_data (fst (pk_init B s l))) /\
  forall q, present s q -> family_complete s q -> kget (p_data (fst (pk_init B s l))) q = kget (p_data s) q.
Proof.
  induction l as [|k l IH]; intros s; cbn [pk_init].
  - cbn. repeat split; auto; intros q Hq; exact Hq.
  - pose proof (get_effect k s) as (H1 & H2 & H3). destruct (pk_get B s k) as [s1 r]. cbn [fst] in *. destruct r as [v|e]; [|auto].
    destruct (IH s1) as (J1 & J2 & J3). split; [congruence|]. split; [intros q Hq; apply J2, H2, Hq|].
    intros q Hq Hf. rewrite J3; [apply H3; assumption|apply H2; exact Hq|eapply family_grows; [exact H2|exact Hf]].
Qed.

(** a read only computes entries with keys at most as long *)
Lemma get_longer k : forall s q, List.length k < List.length q -> kget (p_data (fst (pk_get B s k))) q = kget (p_data s) q.
Proof.
  induction k as [|p c IH] using key_ind_last; intros s q Hq.
  - destruct (p_max s) as [m|] eqn:Em; [|rewrite (pk_get_none s _ Em); reflexivity].
    cbn. rewrite Em. destruct (kget (p_data s) []); [reflexivity|]. destruct (m <? 0)%Z; reflexivity.
  - rewrite app_length in Hq. cbn in Hq. destruct (p_max s) as [m|] eqn:Em; [|rewrite (pk_get_none s _ Em); reflexivity].
    destruct (kget (p_data s) (p ++ [c])) as [v|] eqn:Ek; [rewrite (pk_get_present s _ m v Em Ek); reflexivity|].
    destruct (Z_le_gt_dec (Z.of_nat (S (List.length p))) m) as [Hle|Hgt].
    2:{ rewrite (pk_get_long s _ m Em Ek) by (rewrite app_length; cbn; lia). reflexivity. }
    destruct (in_dec ascii_dec c (be_letters B)) as [Hc|Hc]; [|rewrite (pk_get_foreign s p c m Em Ek Hle Hc); reflexivity].
    rewrite (pk_get_step s p c m Em Ek Hle Hc). specialize (IH s q ltac:(lia)). destruct (pk_get B s p) as [s1 r]. cbn [fst] in IH.
    destruct r as [data|e]; [|exact IH]. destruct (be_dec B (p_be s1) data) as [b rch]. destruct rch as [ch|e]; cbn; [|exact IH].
    rewrite kget_children_other; [exact IH|exact letters_nodup|]. intros c' _ ->. rewrite app_length in Hq. cbn in Hq. lia.
Qed.
Lemma gets_present s m keys vals : p_max s = Some m -> map (kget (p_data s)) keys = map Some vals -> pk_gets B s keys = (s, Ok vals).
Proof.
  intros Hm. revert vals; induction keys as [|k keys IH]; intros [|v vals] H; try discriminate; [reflexivity|].
  cbn in H. injection H as Hk Hr. cbn. rewrite (pk_get_present s k m v Hm Hk). rewrite (IH vals Hr). reflexivity.
Qed.
Lemma kmem_some (d : kdict (tensor K)) k : kmem d k = true <-> exists v, kget d k = Some v.
Proof. unfold kmem. destruct (kget d k); split; intros H; eauto; try discriminate. destruct H; discriminate. Qed.
Lemma gets_all (d : kdict (tensor K)) keys : forallb (kmem d) keys = true -> exists vals, map (kget d) keys = map Some vals.
Proof.
  induction keys as [|k keys IH]; cbn; intros H; [exists []; reflexivity|]. apply andb_true_iff in H as [H1 H2].
  apply kmem_some in H1 as [v Hv]. destruct (IH H2) as [vals E]. exists (v :: vals). cbn. congruence.
Qed.
Lemma gets_all_inv (d : kdict (tensor K)) keys vals : map (kget d) keys = map Some vals -> forallb (kmem d) keys = true.
Proof. revert vals; induction keys as [|k keys IH]; intros [|v vals] H; try discriminate; [reflexivity|]. cbn in *. injection H as H1 H2. rewrite (IH vals H2). unfold kmem. rewrite H1. reflexivity. Qed.

(** ** a missing leaf stops reconstruct *)
Lemma rec_node_needs s level node c : In c (be_letters B) -> kget (p_data s) (node ++ [c]) = None -> pk_rec_node B s level node = (s, Raise KeyError).
Proof.
  intros Hc Hk. unfold pk_rec_node. destruct (forallb _ _) eqn:E; [|reflexivity]. exfalso.
  rewrite forallb_forall in E. specialize (E (node ++ [c]) (in_map (fun c => node ++ [c]) _ _ Hc)). unfold kmem in E. rewrite Hk in E. discriminate.
Qed.
Lemma rec_node_longer s level node q m : p_max s = Some m -> List.length node < List.length q -> 
  kget (p_data (fst (pk_rec_node B s level node))) q = kget (p_data s) q /\ p_max (fst (pk_rec_node B s level node)) = Some m.
Proof.
  intros Hm Hq. unfold pk_rec_node. destruct (forallb _ _) eqn:E; [|auto].
  destruct (gets_all _ _ E) as [vals Ev]. rewrite (gets_present s m _ vals Hm Ev).
  destruct (be_rec B (p_be s) vals) as [b [r|e]]; [|cbn; auto].
  destruct (Nat.ltb 0 level).
  - set (s2 := mkP (p_data s) (p_max s) b). pose proof (get_longer node s2 q Hq) as G. pose proof (get_effect node s2) as (G1 & _ & _).
    destruct (pk_get B s2 node) as [s3 rn]. cbn [fst] in G, G1. destruct (let* n := rn in be_crop B r n) as [r'|e]; cbn.
    + rewrite kget_kset_ne by (intros ->; lia). split; [exact G|]. rewrite G1. exact Hm.
    + split; [exact G|]. rewrite G1. exact Hm.
  - cbn. rewrite kget_kset_ne by (intros ->; lia). auto.
Qed.
Lemma rec_nodes_needs nodes : forall s level node c m, p_max s = Some m -> In node nodes -> (forall n, In n nodes -> List.length n = List.length node) ->
  In c (be_letters B) -> kget (p_data s) (node ++ [c]) = None -> exists e, snd (pk_rec_nodes B s level nodes) = Raise e.
Proof.
  induction nodes as [|n nodes IH]; intros s level node c m Hm Hin Hlen Hc Hk; [destruct Hin|].
  cbn [pk_rec_nodes]. destruct Hin as [->|Hin].
  - rewrite (rec_node_needs s level node c Hc Hk). cbn. eauto.
  - pose proof (rec_node_longer s level n (node ++ [c]) m Hm) as G. rewrite app_length in G. cbn in G. specialize (G ltac:(rewrite (Hlen n (or_introl eq_refl)); lia)).
    destruct G as [G1 G2]. destruct (pk_rec_node B s level n) as [s1 v]. cbn [fst] in *. destruct v as [|e]; [|cbn; eauto].
    apply (IH s1 level node c m G2 Hin); [intros; apply Hlen; right; assumption|exact Hc|congruence].
Qed.

Hypothesis order_ok : forall l, NoDup (be_order B l) /\ forall p, In p (be_order B l) <-> List.length p = l /\ word (be_letters B) p.

Lemma reconstruct_needs s m p : p_max s = Some m -> List.length p = Z.to_nat m -> 1 <= List.length p -> word (be_letters B) p ->
  kget (p_data s) p = None -> exists e, snd (pk_reconstruct B s) = Raise e.
Proof.
  intros Hm Hl H1 Hw Hk. unfold pk_reconstruct. rewrite Hm. rewrite <- Hl. destruct (rev p) as [|c up] eqn:E.
  - assert (p = []) as -> by (rewrite <- (rev_involutive p), E; reflexivity). cbn in H1. lia.
  - assert (Eq : p = rev up ++ [c]) by (rewrite <- (rev_involutive p), E; reflexivity). clear E. set (n := rev up) in *. subst p.
    apply Forall_app in Hw as [Hw Hc]. apply Forall_inv in Hc. rewrite app_length in *. cbn [List.length] in *. rewrite Nat.add_comm. cbn [Nat.add pk_rec_levels].
    destruct (rec_nodes_needs (be_order B (List.length n)) s (List.length n) n c m Hm) as [e He]; auto.
    + apply order_ok. auto.
    + intros q Hq. apply order_ok in Hq. tauto.
    + destruct (pk_rec_nodes B s _ _) as [s1 v]. cbn [snd] in He. subst v. cbn. eauto.
Qed.

(** ** trees that were only read *)
Section Pure.
Variables (Inv : be_st B -> Prop) (D : tensor K -> Prop).
Variables (f : tensor K -> result (list (tensor K))) (g : list (tensor K) -> result (tensor K)).
Hypothesis dec_pure : forall b t, Inv b -> D t -> Inv (fst (be_dec B b t)) /\ snd (be_dec B b t) = f t.
Hypothesis dec_children : forall t ch, D t -> f t = Ok ch -> List.length ch = List.length (be_letters B) /\ Forall D ch.

Notation node := (node_at f (be_letters B)).
Lemma node_root x : node x [] = Ok x. Proof. reflexivity. Qed.
Lemma node_snoc x p c : node x (p ++ [c]) =
  if memc c (be_letters B) then
    let* v := node x p in let* ch := f v in match child (be_letters B) ch c with Some u => Ok u | None => Raise KeyError end
  else Raise ValueError.
Proof. unfold node_at. rewrite rev_app_distr. reflexivity. Qed.
Lemma node_D x p v : D x -> node x p = Ok v -> D v.
Proof.
  intros Hx. revert v; induction p as [|p c IH] using key_ind_last; intros v H; [injection H as <-; exact Hx|].
  rewrite node_snoc in H. destruct (memc c _); [|discriminate]. destruct (node x p) as [u|] eqn:Eu; [|discriminate]. cbn in H.
  destruct (f u) as [ch|] eqn:Ef; [|discriminate]. cbn in H. destruct (child (be_letters B) ch c) as [y|] eqn:Ec; [|discriminate]. injection H as <-.
  destruct (dec_children u ch (IH u eq_refl) Ef) as [_ HF]. apply child_in in Ec as [Hin _]. rewrite Forall_forall in HF. auto.
Qed.
Lemma node_word x p v : node x p = Ok v -> word (be_letters B) p.
Proof.
  revert v; induction p as [|p c IH] using key_ind_last; intros v H; [constructor|].
  rewrite node_snoc in H. destruct (memc c _) eqn:Ec; [|discriminate]. destruct (node x p) as [u|] eqn:Eu; [|discriminate].
  apply Forall_app. split; [eapply IH; reflexivity|]. constructor; [apply memc_In; exact Ec|constructor].
Qed.

(** the object holds (part of) the packet tree of x *)
Record holds (x : tensor K) (m : Z) s : Prop := {
  h_max : p_max s = Some m;
  h_inv : Inv (p_be s);
  h_root : kget (p_data s) [] = Some x;
  h_val : forall k v, kget (p_data s) k = Some v -> node x k = Ok v;
  h_len : forall k, present s k -> k = [] \/ (Z.of_nat (List.length k) <= m)%Z;
  h_up : forall p c, present s (p ++ [c]) -> present s p;
  h_fam : forall p c c', present s (p ++ [c]) -> In c' (be_letters B) -> present s (p ++ [c']) }.
(** what reading key k must return *)
Definition read_spec (x : tensor K) (m : Z) (k : key) : result (tensor K) :=
  match k with [] => Ok x | _ => if (Z.of_nat (List.length k) <=? m)%Z then node x k else Raise KeyError end.

Lemma holds_transform s x m : Inv (p_be s) -> holds x m (fst (pk_transform B s x (Some m))).
Proof.
  intros Hi. cbn. constructor; cbn; auto.
  - intros k v. destruct k as [|a k]; cbn; [intros [= <-]; reflexivity|discriminate].
  - intros [|a k] H; [auto|]. exfalso. apply H. reflexivity.
  - intros [|a p] c H; exfalso; apply H; reflexivity.
  - intros [|a p] c c' H; exfalso; apply H; reflexivity.
Qed.
Lemma holds_read x m k : D x -> forall s, holds x m s ->
  holds x m (fst (pk_get B s k)) /\ snd (pk_get B s k) = read_spec x m k.
Proof.
  intros Hx. induction k as [|p c IH] using key_ind_last; intros s Hs.
  - rewrite (pk_get_present s [] m x (h_max _ _ _ Hs) (h_root _ _ _ Hs)). split; [exact Hs|reflexivity].
  - pose proof (h_max _ _ _ Hs) as Em.
    assert (Espec : read_spec x m (p ++ [c]) = if (Z.of_nat (List.length (p ++ [c])) <=? m)%Z then node x (p ++ [c]) else Raise KeyError).
    { destruct p; reflexivity. }
    rewrite Espec. destruct (kget (p_data s) (p ++ [c])) as [v|] eqn:Ek.
    + rewrite (pk_get_present s _ m v Em Ek). split; [exact Hs|]. cbn [snd].
      destruct (h_len _ _ _ Hs (p ++ [c])) as [E|Hl]; [unfold present; congruence|destruct p; discriminate|].
      replace (_ <=? m)%Z with true by (symmetry; apply Z.leb_le; exact Hl). symmetry. apply (h_val _ _ _ Hs). exact Ek.
    + rewrite app_length. cbn [List.length].
      destruct (Z_le_gt_dec (Z.of_nat (S (List.length p))) m) as [Hle|Hgt].
      2:{ rewrite (pk_get_long s _ m Em Ek) by (rewrite app_length; cbn; lia). split; [exact Hs|]. cbn [snd].
          replace (_ <=? m)%Z with false by (symmetry; apply Z.leb_gt; lia). reflexivity. }
      replace (_ <=? m)%Z with true by (symmetry; apply Z.leb_le; lia). rewrite node_snoc.
      destruct (in_dec ascii_dec c (be_letters B)) as [Hc|Hc].
      2:{ rewrite (pk_get_foreign s p c m Em Ek Hle Hc). split; [exact Hs|].
          destruct (memc c (be_letters B)) eqn:E; [apply memc_In in E; contradiction|reflexivity]. }
      rewrite (proj2 (memc_In c _) Hc). rewrite (pk_get_step s p c m Em Ek Hle Hc).
      destruct (IH s Hs) as [Hs1 Hr]. pose proof (get_ok_stored p s) as Hst0. destruct (pk_get B s p) as [s1 r]. cbn [fst snd] in *. subst r.
      assert (Ep : read_spec x m p = node x p).
      { destruct p as [|a p']; [reflexivity|]. unfold read_spec. replace (_ <=? m)%Z with true by (symmetry; apply Z.leb_le; lia). reflexivity. }
      rewrite Ep in *. destruct (node x p) as [data|e] eqn:En; [|split; [exact Hs1|reflexivity]]. cbn [rbind]. pose proof (Hst0 data eq_refl) as Hst.
      pose proof (node_D x p data Hx En) as HD.
      destruct (dec_pure (p_be s1) data (h_inv _ _ _ Hs1) HD) as [Hi Hf]. destruct (be_dec B (p_be s1) data) as [b rch]. cbn [fst snd] in *. subst rch.
      destruct (f data) as [ch|e] eqn:Ef.
      2:{ split; [|reflexivity]. destruct Hs1. constructor; cbn; auto. }
      destruct (dec_children data ch HD Ef) as [Hl HF]. cbn [fst snd rbind].
      destruct (child_some (be_letters B) ch c Hl Hc) as (u & Eu & Hin).
      rewrite kget_children_at by exact letters_nodup. rewrite Eu. split; [|reflexivity].
      assert (Hk : forall q, kget (set_children (p_data s1) p (be_letters B) ch) q <> None <-> (present s1 q \/ exists c', In c' (be_letters B) /\ q = p ++ [c'])).
      { intros q. rewrite kget_children by exact letters_nodup. split.
        - intros H. destruct (rev q) as [|c' up] eqn:E; [left; exact H|]. assert (Eq : q = rev up ++ [c']) by (rewrite <- (rev_involutive q), E; reflexivity).
          destruct (key_eqb_spec (rev up) p) as [E1|]; [|left; exact H]. destruct (child _ ch c') as [y|] eqn:Ey; [|left; exact H].
          right. exists c'. apply child_in in Ey as [_ Ey]. split; [exact Ey|congruence].
        - intros [H|(c' & Hc' & ->)].
          + destruct (rev q) as [|c' up]; [exact H|]. destruct (key_eqb _ p); [|exact H]. destruct (child _ ch c'); [discriminate|exact H].
          + rewrite rev_app_distr. cbn. rewrite rev_involutive. destruct (key_eqb_spec p p); [|congruence].
            destruct (child_some (be_letters B) ch c' Hl Hc') as (y & -> & _). discriminate. }
      assert (Hp1 : present s1 p).
      { unfold present. (* p was just read: it is stored *)
        rewrite Hst. discriminate. }
      constructor; cbn [p_max p_be p_data].
      * exact (h_max _ _ _ Hs1).
      * exact Hi.
      * rewrite kget_children_other; [exact (h_root _ _ _ Hs1)|exact letters_nodup|]. intros c' _ E. destruct p; discriminate.
      * intros k v. rewrite kget_children by exact letters_nodup. destruct (rev k) as [|c' up] eqn:E; [apply (h_val _ _ _ Hs1)|].
        assert (Eq : k = rev up ++ [c']) by (rewrite <- (rev_involutive k), E; reflexivity).
        destruct (key_eqb_spec (rev up) p) as [E1|]; [|apply (h_val _ _ _ Hs1)]. destruct (child _ ch c') as [y|] eqn:Ey; [|apply (h_val _ _ _ Hs1)].
        intros [= <-]. rewrite Eq, E1, node_snoc. pose proof (child_in _ _ _ _ Ey) as [_ Hc']. rewrite (proj2 (memc_In _ _) Hc'), En. cbn. rewrite Ef. cbn. rewrite Ey. reflexivity.
      * intros k Hkp. apply Hk in Hkp as [Hkp|(c' & _ & ->)]; [apply (h_len _ _ _ Hs1); exact Hkp|]. right. rewrite app_length; cbn; lia.
      * intros p' c' Hpp. apply Hk. apply Hk in Hpp as [Hpp|(c'' & _ & E)]; left; [eapply (h_up _ _ _ Hs1); exact Hpp|]. apply app_last_inj in E as [-> _]. exact Hp1.
      * intros p' c1 c2 Hpp Hc2. apply Hk. apply Hk in Hpp as [Hpp|(c'' & Hc'' & E)]; [left; eapply (h_fam _ _ _ Hs1); eassumption|].
        right. apply app_last_inj in E as [-> _]. eauto.
Qed.

Lemma holds_init x m l : D x -> forall s, holds x m s -> holds x m (fst (pk_init B s l)).
Proof.
  intros Hx. induction l as [|k l IH]; intros s Hs; [exact Hs|]. cbn [pk_init].
  destruct (holds_read x m k Hx s Hs) as [H1 _]. destruct (pk_get B s k) as [s1 r]. cbn [fst] in H1. destruct r; [apply IH; exact H1|exact H1].
Qed.
Definition read_op (o : op (K := K)) : Prop := match o with ORead _ | OInit _ => True | _ => False end.
Lemma holds_run x m h : D x -> Forall read_op h -> forall s, holds x m s -> holds x m (pk_run B s h).
Proof.
  intros Hx Hh. induction Hh as [|o h Ho Hh IH]; intros s Hs; [exact Hs|]. cbn. apply IH. destruct o; cbn in *; try contradiction.
  - apply holds_read; assumption.
  - apply holds_init; assumption.
Qed.

(** ** reconstruct computes [rebuild] of the leaves *)
(** [Dr]: the tensors synthesis is applied to *)
Variable Dr : tensor K -> Prop.
Hypothesis D_Dr : forall t, D t -> Dr t.
Hypothesis rec_pure : forall b ch, Inv b -> Forall Dr ch -> Inv (fst (be_rec B b ch)) /\ snd (be_rec B b ch) = g ch.
Hypothesis rec_D : forall ch r, Forall Dr ch -> g ch = Ok r -> Dr r.
Hypothesis crop_D : forall r n r', Dr r -> be_crop B r n = Ok r' -> Dr r'.

Lemma rec_node_eq s m p vals : p_max s = Some m -> Inv (p_be s) ->
  map (fun c => kget (p_data s) (p ++ [c])) (be_letters B) = map Some vals -> Forall Dr vals -> (p <> [] -> present s p) ->
  exists b, Inv b /\ pk_rec_node B s (List.length p) p =
    match (let* r := g vals in match p with [] => Ok r | _ => match kget (p_data s) p with Some v => be_crop B r v | None => Raise KeyError end end) with
    | Ok r => (mkP (kset (p_data s) p r) (Some m) b, Ok tt)
    | Raise e => (mkP (p_data s) (Some m) b, Raise e)
    end.
Proof.
  intros Hm Hi Hv HD Hp. assert (Hv' : map (kget (p_data s)) (map (fun c => p ++ [c]) (be_letters B)) = map Some vals) by (rewrite map_map; exact Hv).
  unfold pk_rec_node. rewrite (gets_all_inv _ _ _ Hv'), (gets_present s m _ vals Hm Hv').
  destruct (rec_pure (p_be s) vals Hi HD) as [Hi' Hg]. destruct (be_rec B (p_be s) vals) as [b rr]. cbn [fst snd] in *. subst rr.
  exists b. split; [exact Hi'|]. destruct (g vals) as [r|e]; cbn [rbind]; [|rewrite Hm; reflexivity].
  destruct p as [|a p'].
  - cbn. unfold pk_set. cbn. rewrite Hm. reflexivity.
  - cbn [List.length]. change (Nat.ltb 0 (S (List.length p'))) with true. cbv iota.
    destruct (proj1 (present_some s (a :: p')) (Hp ltac:(discriminate))) as [v Ev]. 
    rewrite (pk_get_present (mkP (p_data s) (p_max s) b) (a :: p') m v Hm Ev). rewrite Ev. cbn [rbind].
    destruct (be_crop B r v) as [r'|e]; unfold pk_set; cbn; rewrite Hm; reflexivity.
Qed.

Section Rebuild.
Variables (d0 : kdict (tensor K)) (N : nat) (m : Z).
Notation reb := (rebuild g (be_crop B) (be_letters B) (kget d0) (kget d0)).
Notation wd := (word (be_letters B)).
Definition lvl_vals (l : nat) (d : kdict (tensor K)) : Prop :=
  forall p, wd p -> List.length p = l -> exists v, reb (N - l) p = Ok v /\ kget d p = Some v /\ Dr v.
Hypothesis inner : forall p, wd p -> 1 <= List.length p < N -> kget d0 p <> None.

Lemma rmap_all_ok {X Y} (F : X -> result Y) l ys : map F l = map Ok ys -> rmap F l = Ok ys.
Proof. revert ys; induction l as [|a l IH]; intros [|y ys] H; try discriminate; [reflexivity|]. cbn in *. injection H as E1 E2. rewrite E1, (IH ys E2). reflexivity. Qed.
Lemma kids_vals l d p : lvl_vals (S l) d -> wd p -> List.length p = l ->
  exists vals, map (fun c => kget d (p ++ [c])) (be_letters B) = map Some vals /\ Forall Dr vals /\
    rmap (fun c => reb (N - S l) (p ++ [c])) (be_letters B) = Ok vals.
Proof.
  intros Hd Hw Hlen.
  assert (G : forall ls, (forall c, In c ls -> In c (be_letters B)) -> exists vals, map (fun c => kget d (p ++ [c])) ls = map Some vals /\ Forall Dr vals /\
    rmap (fun c => reb (N - S l) (p ++ [c])) ls = Ok vals).
  { induction ls as [|c ls IH]; intros Hls; [exists []; auto|]. destruct IH as (vals & E1 & E2 & E3); [intros; apply Hls; right; assumption|].
    destruct (Hd (p ++ [c])) as (v & V1 & V2 & V3).
    - apply Forall_app. split; [exact Hw|]. constructor; [apply Hls; left; reflexivity|constructor].
    - rewrite app_length. cbn. lia.
    - exists (v :: vals). cbn. rewrite V2, E1, V1. cbn. rewrite E3. auto. }
  apply G. auto.
Qed.
Lemma reb_kids n p vals : rmap (fun c => reb n (p ++ [c])) (be_letters B) = Ok vals ->
  reb (S n) p = let* r := g vals in match p with [] => Ok r | _ => match kget d0 p with Some v => be_crop B r v | None => Raise KeyError end end.
Proof. intros E. cbn [rebuild]. rewrite E. reflexivity. Qed.
Lemma rec_nodes_ok l nodes : l < N -> NoDup nodes -> (forall p, In p nodes -> wd p /\ List.length p = l) ->
  forall s, p_max s = Some m -> Inv (p_be s) -> lvl_vals (S l) (p_data s) -> (forall p, In p nodes -> kget (p_data s) p = kget d0 p) ->
  let s' := fst (pk_rec_nodes B s l nodes) in
  p_max s' = Some m /\ Inv (p_be s') /\ (forall q, ~ In q nodes -> kget (p_data s') q = kget (p_data s) q) /\
  ((forall p, In p nodes -> exists v, reb (N - l) p = Ok v) -> snd (pk_rec_nodes B s l nodes) = Ok tt) /\
  (snd (pk_rec_nodes B s l nodes) = Ok tt -> forall p, In p nodes -> exists v, reb (N - l) p = Ok v /\ kget (p_data s') p = Some v /\ Dr v).
Proof.
  intros Hl Hnd Hn. induction nodes as [|n nodes IH]; intros s Hm Hi Hk Hd0; cbn [pk_rec_nodes].
  - cbn. repeat split; auto. intros _ p [].
  - apply NoDup_cons_iff in Hnd as [Hni Hnd]. destruct (Hn n (or_introl eq_refl)) as [Hwn Hln].
    destruct (kids_vals l (p_data s) n Hk Hwn Hln) as (vals & E1 & E2 & E3).
    destruct (rec_node_eq s m n vals Hm Hi E1 E2) as (b & Hb & Eb).
    { intros Hne. unfold present. rewrite (Hd0 n (or_introl eq_refl)). apply inner; [exact Hwn|]. destruct n; [congruence|]. cbn in *. lia. }
    pose proof (reb_kids _ _ _ E3) as ER. rewrite <- (Hd0 n (or_introl eq_refl)) in ER. rewrite <- ER in Eb. rewrite Hln in Eb.
    replace (S (N - S l)) with (N - l) in * by lia. rewrite Eb. destruct (reb (N - l) n) as [r|e] eqn:Er.
    + set (s1 := mkP (kset (p_data s) n r) (Some m) b).
      assert (HDr : Dr r).
      { destruct (g vals) as [r0|] eqn:Eg; cbn [rbind] in ER; [|congruence]. destruct n as [|a n'].
        - injection ER as ->. eapply rec_D; eassumption.
        - destruct (kget (p_data s) (a :: n')); [|congruence]. symmetry in ER. eapply crop_D; [|exact ER]. eapply rec_D; eassumption. }
      destruct (IH Hnd (fun p Hp => Hn p (or_intror Hp)) s1) as (I1 & I2 & I3 & I4 & I5); [reflexivity|exact Hb| | |].
      * intros p Hp Hlp. destruct (Hk p Hp Hlp) as (v & V1 & V2 & V3). exists v. split; [exact V1|]. split; [|exact V3]. cbn. rewrite kget_kset_ne; [exact V2|]. intros ->. lia.
      * intros p Hp. cbn. rewrite kget_kset_ne by (intros ->; contradiction). apply Hd0. right. exact Hp.
      * destruct (pk_rec_nodes B s1 l nodes) as [s2 v2] eqn:E2'. cbn [fst snd] in *. split; [exact I1|]. split; [exact I2|]. split; [|split].
        -- intros q Hq. rewrite I3 by (intros H; apply Hq; right; exact H). cbn. apply kget_kset_ne. intros ->. apply Hq. left. reflexivity.
        -- intros H. apply I4. intros p Hp. apply H. right. exact Hp.
        -- intros H p [<-|Hp]; [|apply I5; assumption]. exists r. split; [exact Er|]. split; [|exact HDr]. rewrite I3 by exact Hni. cbn. apply kget_kset_eq.
    + cbn. split; [reflexivity|]. split; [exact Hb|]. split; [auto|]. split; [|discriminate]. intros H. destruct (H n (or_introl eq_refl)) as [v Hv]. congruence.
Qed.
Lemma reb_down n p v c : reb (S n) p = Ok v -> In c (be_letters B) -> exists u, reb n (p ++ [c]) = Ok u.
Proof.
  cbn [rebuild]. destruct (rmap _ _) as [vals|] eqn:E; [|discriminate]. intros _ Hc. exact (rmap_in_ok _ _ _ c E Hc).
Qed.
Lemma reb_all v : reb N [] = Ok v -> forall p, wd p -> List.length p <= N -> exists u, reb (N - List.length p) p = Ok u.
Proof.
  intros H. intros p. induction p as [|p c IH] using key_ind_last; intros Hw Hl; [cbn; rewrite Nat.sub_0_r; eauto|].
  apply Forall_app in Hw as [Hw Hc]. rewrite app_length in *. cbn in *. destruct (IH Hw ltac:(lia)) as [u Hu].
  replace (N - List.length p) with (S (N - (List.length p + 1))) in Hu by lia. eapply reb_down; [exact Hu|]. exact (Forall_inv Hc).
Qed.
Lemma rec_levels_ok l : l <= N -> forall s, p_max s = Some m -> Inv (p_be s) -> lvl_vals l (p_data s) ->
  (forall p, wd p -> List.length p < l -> kget (p_data s) p = kget d0 p) ->
  let s' := fst (pk_rec_levels B s l) in
  p_max s' = Some m /\ Inv (p_be s') /\ 
  ((exists v, reb N [] = Ok v) -> snd (pk_rec_levels B s l) = Ok tt) /\
  (snd (pk_rec_levels B s l) = Ok tt -> exists v, reb N [] = Ok v /\ kget (p_data s') [] = Some v /\ Dr v).
Proof.
  induction l as [|l IH]; intros Hl s Hm Hi Hv Hd; cbn [pk_rec_levels].
  - cbn. repeat split; auto. intros _. destruct (Hv [] (Forall_nil _) eq_refl) as (v & V1 & V2 & V3). rewrite Nat.sub_0_r in V1. eauto.
  - destruct (order_ok l) as [Hnd Hin].
    destruct (rec_nodes_ok l (be_order B l) ltac:(lia) Hnd) with (s := s) as (I1 & I2 & I3 & I4 & I5); auto.
    + intros p Hp. apply Hin in Hp. tauto.
    + intros p Hp. apply Hin in Hp as [Hp Hw]. apply Hd; [exact Hw|lia].
    + destruct (pk_rec_nodes B s l (be_order B l)) as [s1 v1]. cbn [fst snd] in *. destruct v1 as [[]|e].
      * apply IH; auto; [lia| |].
        -- intros p Hw Hp. apply I5; [reflexivity|]. apply Hin. auto.
        -- intros p Hw Hp. rewrite I3; [apply Hd; [exact Hw|lia]|]. intros H. apply Hin in H. lia.
      * cbn. split; [exact I1|]. split; [exact I2|]. split; [|discriminate]. intros [v Hv0]. apply I4. intros p Hp. apply Hin in Hp as [<- Hw]. apply (reb_all v Hv0); [exact Hw|lia].
Qed.
End Rebuild.

Theorem reconstruct_rebuild s m : p_max s = Some m -> Inv (p_be s) ->
  let N := Z.to_nat m in
  (forall p, word (be_letters B) p -> List.length p = N -> exists v, kget (p_data s) p = Some v /\ Dr v) ->
  (forall p, word (be_letters B) p -> 1 <= List.length p < N -> present s p) ->
  let reb := rebuild g (be_crop B) (be_letters B) (kget (p_data s)) (kget (p_data s)) N [] in
  let '(s', r) := pk_reconstruct B s in
  p_max s' = Some m /\ Inv (p_be s') /\
  match r with Ok _ => exists v, reb = Ok v /\ kget (p_data s') [] = Some v | Raise _ => exists e, reb = Raise e end.
Proof.
  intros Hm Hi N Hleaf Hin reb. unfold pk_reconstruct. rewrite Hm. fold N.
  pose proof (rec_levels_ok (p_data s) N m Hin N (le_n _) s Hm Hi) as H. cbv zeta in H. destruct (pk_rec_levels B s N) as [s' r]. cbn [fst snd] in H.
  destruct H as (I1 & I2 & I3 & I4); auto.
  - intros p Hw Hp. destruct (Hleaf p Hw Hp) as (v & V1 & V2). exists v. rewrite Nat.sub_diag. cbn. rewrite V1. auto.
  - split; [exact I1|]. split; [exact I2|]. destruct r as [[]|e].
    + destruct (I4 eq_refl) as (v & V1 & V2 & _). eauto.
    + unfold reb. destruct (rebuild _ _ _ _ _ N []) as [v|e'] eqn:E; [|eauto]. specialize (I3 (ex_intro _ v eq_refl)). discriminate.
Qed.

(** ** perfect reconstruction of trees that were only read *)
Variable R : tensor K -> tensor K -> Prop.
Hypothesis step_pr : forall t ch, D t -> f t = Ok ch -> exists r, g ch = Ok r /\ be_crop B r t = Ok t /\ R t r.

Hypothesis letters_ne : be_letters B <> [].

Lemma holds_kids x m s p v : D x -> holds x m s -> node x p = Ok v -> (forall c, In c (be_letters B) -> present s (p ++ [c])) ->
  exists ch, f v = Ok ch /\ List.length ch = List.length (be_letters B) /\ Forall D ch /\
    (forall c, In c (be_letters B) -> exists u, child (be_letters B) ch c = Some u /\ node x (p ++ [c]) = Ok u /\ kget (p_data s) (p ++ [c]) = Some u).
Proof.
  intros Hx Hs Hv Hp. pose proof (node_D x p v Hx Hv) as HDv.
  assert (Hc0 : exists c0, In c0 (be_letters B)) by (destruct (be_letters B) as [|c0 l]; [congruence|exists c0; left; reflexivity]).
  destruct Hc0 as [c0 Hc0]. 
  assert (Hf : exists ch, f v = Ok ch).
  { destruct (proj1 (present_some s _) (Hp c0 Hc0)) as [u Hu]. pose proof (h_val _ _ _ Hs _ _ Hu) as E. rewrite node_snoc, Hv in E. destruct (memc c0 _); [|discriminate].
    cbn in E. destruct (f v) as [ch|]; [eauto|discriminate]. }
  destruct Hf as [ch Hf]. exists ch. destruct (dec_children v ch HDv Hf) as [Hl HF]. repeat split; auto.
  intros c Hc. destruct (child_some (be_letters B) ch c Hl Hc) as (u & Hu & _). exists u. split; [exact Hu|].
  destruct (proj1 (present_some s _) (Hp c Hc)) as [u' Hu']. pose proof (h_val _ _ _ Hs _ _ Hu') as E. pose proof E as E'. rewrite node_snoc, Hv, (proj2 (memc_In c _) Hc) in E. cbn in E.
  rewrite Hf in E. cbn in E. rewrite Hu in E. injection E as <-. auto.
Qed.
Lemma map_ok_list (ch : list (tensor K)) F : NoDup (be_letters B) -> List.length ch = List.length (be_letters B) ->
  (forall c u, In c (be_letters B) -> child (be_letters B) ch c = Some u -> F c = Ok u) -> rmap F (be_letters B) = Ok ch.
Proof.
  intros Hn Hl HF. apply rmap_all_ok. pose proof (child_list (be_letters B) ch Hn Hl) as E.
  assert (G : forall ls cs, (forall c, In c ls -> In c (be_letters B)) -> map (child (be_letters B) ch) ls = map Some cs -> map F ls = map Ok cs).
  { induction ls as [|c ls IH]; intros [|u cs] Hin Hm; try discriminate; [reflexivity|]. cbn in *. injection Hm as H1 H2.
    rewrite (HF c u); [|apply Hin; left; reflexivity|exact H1]. rewrite (IH cs); auto. }
  apply G; auto.
Qed.
Notation reb s := (rebuild g (be_crop B) (be_letters B) (kget (p_data s)) (kget (p_data s))).
Lemma rebuild_inner x m s : D x -> holds x m s -> forall n p v, node x p = Ok v -> p <> [] ->
  (forall q, word (be_letters B) q -> List.length q <= n -> present s (p ++ q)) -> reb s n p = Ok v.
Proof.
  intros Hx Hs. induction n as [|n IH]; intros p v Hv Hne Hp.
  - cbn. pose proof (Hp [] (Forall_nil _) (le_n _)) as H. rewrite app_nil_r in H. apply present_some in H as [u Hu]. rewrite Hu.
    apply (h_val _ _ _ Hs) in Hu. congruence.
  - destruct (holds_kids x m s p v Hx Hs Hv) as (ch & Hf & Hl & HF & Hch).
    { intros c Hc. apply Hp; [constructor; [exact Hc|constructor]|cbn; lia]. }
    assert (Er : rmap (fun c => reb s n (p ++ [c])) (be_letters B) = Ok ch).
    { apply map_ok_list; auto. intros c u Hc Hu. destruct (Hch c Hc) as (u' & U1 & U2 & U3). assert (u' = u) as -> by congruence.
      apply IH; [exact U2|destruct p; discriminate|]. intros q Hq Hlq. rewrite <- app_assoc. apply Hp; [constructor; [exact Hc|exact Hq]|cbn; lia]. }
    cbn [rebuild]. rewrite Er. cbn [rbind]. destruct (step_pr v ch (node_D x p v Hx Hv) Hf) as (r & G1 & G2 & _). rewrite G1. cbn [rbind].
    destruct p as [|a p']; [congruence|]. pose proof (Hp [] (Forall_nil _) ltac:(cbn; lia)) as H. rewrite app_nil_r in H. apply present_some in H as [u Hu]. rewrite Hu.
    apply (h_val _ _ _ Hs) in Hu. assert (u = v) as -> by congruence. exact G2.
Qed.
Lemma holds_prefix x m s p : holds x m s -> forall q, present s (p ++ q) -> present s p.
Proof.
  intros Hs q. induction q as [|q c IH] using key_ind_last; intros H; [rewrite app_nil_r in H; exact H|].
  apply IH. rewrite app_assoc in H. eapply (h_up _ _ _ Hs). exact H.
Qed.
Lemma holds_all x m s : holds x m s -> (forall p, word (be_letters B) p -> List.length p = Z.to_nat m -> present s p) ->
  forall p, word (be_letters B) p -> List.length p <= Z.to_nat m -> present s p.
Proof.
  intros Hs Hl p Hw Hp. destruct (be_letters B) as [|c0 ls] eqn:E; [congruence|].
  apply (holds_prefix x m s p Hs (repeat c0 (Z.to_nat m - List.length p))). apply Hl.
  - apply Forall_app. split; [exact Hw|]. apply Forall_forall. intros c Hc. apply repeat_spec in Hc. subst. left. reflexivity.
  - rewrite app_length, repeat_length. lia.
Qed.
Theorem reconstruct_pr x m s : D x -> holds x m s -> (1 <= m)%Z ->
  (forall p, word (be_letters B) p -> List.length p = Z.to_nat m -> present s p) ->
  exists s' ch r, pk_reconstruct B s = (s', Ok tt) /\ f x = Ok ch /\ g ch = Ok r /\ R x r /\ kget (p_data s') [] = Some r.
Proof.
  intros Hx Hs Hm Hleaf. pose proof (holds_all x m s Hs Hleaf) as Hall.
  pose proof (reconstruct_rebuild s m (h_max _ _ _ Hs) (h_inv _ _ _ Hs)) as H. cbv zeta in H. set (N := Z.to_nat m) in *.
  assert (HN : exists n, N = S n) by (exists (N - 1); unfold N; lia). destruct HN as [n HN].
  destruct (holds_kids x m s [] x Hx Hs eq_refl) as (ch & Hf & Hl & HF & Hch).
  { intros c Hc. apply Hall; [constructor; [exact Hc|constructor]|cbn; lia]. }
  destruct (step_pr x ch Hx Hf) as (r & G1 & G2 & G3).
  assert (ER : reb s N [] = Ok r).
  { rewrite HN. cbn [rebuild]. rewrite (map_ok_list ch (fun c => reb s n ([] ++ [c]))); auto.
    - cbn [rbind]. rewrite G1. reflexivity.
    - intros c u Hc Hu. destruct (Hch c Hc) as (u' & U1 & U2 & U3). assert (u' = u) as -> by congruence.
      apply (rebuild_inner x m s Hx Hs); [exact U2|discriminate|]. intros q Hq Hlq. apply Hall; [constructor; assumption|cbn; lia]. }
  rewrite ER in H. destruct (pk_reconstruct B s) as [s' o]. destruct H as (_ & _ & H).
  - intros p Hw Hp. destruct (proj1 (present_some s p) (Hleaf p Hw Hp)) as [v Hv]. exists v. split; [exact Hv|]. apply D_Dr. eapply node_D; [exact Hx|]. apply (h_val _ _ _ Hs). exact Hv.
  - intros p Hw Hp. apply Hall; [exact Hw|lia].
  - destruct o as [[]|e]; [|destruct H; discriminate]. destruct H as (v & Ev & Hv). injection Ev as <-. exists s', ch, r. auto.
Qed.

(** on a tree that was only read, the only way to fail is a missing leaf *)
Lemma holds_same x m s s' : holds x m s -> p_max s' = Some m -> Inv (p_be s') -> (forall q, kget (p_data s') q = kget (p_data s) q) -> holds x m s'.
Proof.
  intros Hs Hm Hi Hq. constructor; auto.
  - rewrite Hq. apply (h_root _ _ _ Hs).
  - intros k v. rewrite Hq. apply (h_val _ _ _ Hs).
  - intros k. unfold present. rewrite Hq. apply (h_len _ _ _ Hs).
  - intros p c. unfold present. rewrite !Hq. apply (h_up _ _ _ Hs).
  - intros p c c'. unfold present. rewrite !Hq. apply (h_fam _ _ _ Hs).
Qed.
Lemma rec_nodes_holds x m nodes : D x -> (forall p, In p nodes -> p <> []) -> forall s l, (forall p, In p nodes -> List.length p = l) -> holds x m s ->
  snd (pk_rec_nodes B s l nodes) = Ok tt \/ snd (pk_rec_nodes B s l nodes) = Raise KeyError.
Proof.
  intros Hx. induction nodes as [|p nodes IH]; intros Hne s l Hlen Hs; cbn [pk_rec_nodes]; [left; reflexivity|].
  destruct (forallb (kmem (p_data s)) (map (fun c => p ++ [c]) (be_letters B))) eqn:E.
  2:{ unfold pk_rec_node. rewrite E. right. reflexivity. }
  assert (Hpc : forall c, In c (be_letters B) -> present s (p ++ [c])).
  { intros c Hc. rewrite forallb_forall in E. specialize (E (p ++ [c]) (in_map (fun c => p ++ [c]) _ _ Hc)). apply kmem_some in E. apply present_some. exact E. }
  assert (Hpp : exists v, kget (p_data s) p = Some v).
  { destruct (be_letters B) as [|c0 ls] eqn:EL; [congruence|]. apply present_some. eapply (h_up _ _ _ Hs). apply (Hpc c0). left. reflexivity. }
  destruct Hpp as [v Ev]. pose proof (h_val _ _ _ Hs _ _ Ev) as Hv.
  destruct (holds_kids x m s p v Hx Hs Hv Hpc) as (ch & Hf & Hl & HF & Hch).
  destruct (rec_node_eq s m p ch (h_max _ _ _ Hs) (h_inv _ _ _ Hs)) as (b & Hb & Eb); [|exact (Forall_impl _ D_Dr HF)|intros _; apply present_some; eauto|].
  { rewrite <- (child_list (be_letters B) ch letters_nodup Hl). apply map_ext_in. intros c Hc. destruct (Hch c Hc) as (u & -> & _ & ->). reflexivity. }
  destruct (step_pr v ch (node_D x p v Hx Hv) Hf) as (r & G1 & G2 & _). rewrite G1, Ev in Eb. cbn [rbind] in Eb.
  rewrite (Hlen p (or_introl eq_refl)) in Eb.
  assert (Eb' : pk_rec_node B s l p = (mkP (kset (p_data s) p v) (Some m) b, Ok tt)).
  { rewrite Eb. specialize (Hne p (or_introl eq_refl)). destruct p; [congruence|]. rewrite G2. reflexivity. }
  rewrite Eb'. apply IH; [intros; apply Hne; right; assumption|intros; apply Hlen; right; assumption|].
  apply (holds_same x m s); auto. intros q. cbn. rewrite kget_kset. destruct (key_eqb_spec p q) as [<-|]; [symmetry; exact Ev|reflexivity].
Qed.
Theorem reconstruct_missing x m s p : D x -> holds x m s -> word (be_letters B) p -> List.length p = Z.to_nat m -> p <> [] -> ~ present s p ->
  snd (pk_reconstruct B s) = Raise KeyError.
Proof.
  intros Hx Hs Hw Hl Hne Hp. 
  assert (Ep : kget (p_data s) p = None). { destruct (kget (p_data s) p) eqn:E; [|reflexivity]. exfalso. apply Hp. unfold present. congruence. }
  assert (H1 : 1 <= List.length p) by (destruct p; [congruence|cbn; lia]).
  destruct (reconstruct_needs s m p (h_max _ _ _ Hs) Hl H1 Hw Ep) as [e He].
  unfold pk_reconstruct in *. rewrite (h_max _ _ _ Hs) in *. rewrite <- Hl in *. destruct (List.length p) as [|l] eqn:E; [lia|]. cbn [pk_rec_levels] in *.
  destruct (order_ok l) as [_ Hin].
  destruct (Nat.eq_dec l 0) as [->|Hl0].
  - (* the only node is the root *)
    destruct p as [|c [|]]; try discriminate. pose proof (Forall_inv Hw) as Hc. 
    assert (Hn : forall n, In n (be_order B 0) -> n = []) by (intros n Hn; apply Hin in Hn as [Hn _]; destruct n; [reflexivity|discriminate]).
    assert (Hn0 : In [] (be_order B 0)) by (apply Hin; split; [reflexivity|constructor]).
    destruct (be_order B 0) as [|n0 ns]; [destruct Hn0|]. cbn [pk_rec_nodes]. rewrite (Hn n0 (or_introl eq_refl)).
    rewrite (rec_node_needs s 0 [] c Hc Ep). reflexivity.
  - destruct (rec_nodes_holds x m (be_order B l) Hx) with (s := s) (l := l) as [E'|E']; auto.
    + intros n Hn ->. apply Hin in Hn as [Hn _]. cbn in Hn. lia.
    + intros n Hn. apply Hin in Hn. tauto.
    + exfalso. destruct (rec_nodes_needs (be_order B l) s l (removelast p) (last p " "%char) m) as [e' He']; auto.
      * apply (h_max _ _ _ Hs).
      * apply Hin. rewrite (app_removelast_last " "%char Hne) in E, Hw. rewrite app_length in E. cbn in E. apply Forall_app in Hw as [Hw _]. split; [lia|exact Hw].
      * intros n Hn. apply Hin in Hn as [Hn _]. rewrite (app_removelast_last " "%char Hne) in E. rewrite app_length in E. cbn in E. lia.
      * rewrite (app_removelast_last " "%char Hne) in Hw. apply Forall_app in Hw as [_ Hw]. exact (Forall_inv Hw).
      * rewrite <- (app_removelast_last " "%char Hne). exact Ep.
      * congruence.
    + destruct (pk_rec_nodes B s l (be_order B l)) as [s1 v]. cbn [snd] in E'. subst v. reflexivity.
Qed.
End Pure.
End PF.
