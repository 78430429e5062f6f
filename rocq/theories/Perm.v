(** Permutations of axes: gather / unperm / argsort. *)
From Coq Require Import List Arith ZArith Lia Bool Permutation Sorted.
From Verif Require Import Base Sums Tensor TensorFacts Util.
Import ListNotations.

Definition is_perm (p : list nat) (r : nat) : Prop := Permutation p (seq 0 r).

Lemma is_perm_length p r : is_perm p r -> length p = r.
Proof. intros H. apply Permutation_length in H. rewrite seq_length in H. exact H. Qed.

Lemma is_perm_nodup p r : is_perm p r -> NoDup p.
Proof. intros H. apply (Permutation_NoDup (l:=seq 0 r)); [apply Permutation_sym; exact H|apply seq_NoDup]. Qed.

Lemma is_perm_in p r d : is_perm p r -> (In d p <-> d < r).
Proof.
  intros H. split; intros H1.
  - apply (Permutation_in _ H) in H1. apply in_seq in H1. lia.
  - apply (Permutation_in _ (Permutation_sym H)). apply in_seq. lia.
Qed.

Lemma index_of_lt x l : In x l -> index_of x l < length l.
Proof.
  induction l as [|a l IH]; intros H; cbn in *; [destruct H|].
  destruct (Nat.eqb_spec a x); [lia|]. destruct H; [congruence|]. specialize (IH H). lia.
Qed.

Lemma nth_index_of x l def : In x l -> nth (index_of x l) l def = x.
Proof.
  induction l as [|a l IH]; intros H; cbn in *; [destruct H|].
  destruct (Nat.eqb_spec a x); [assumption|]. destruct H; [congruence|]. auto.
Qed.

Lemma index_of_nth i l def : NoDup l -> i < length l -> index_of (nth i l def) l = i.
Proof.
  intros H. revert i. induction H as [|a l Hn Hd IH]; intros i Hi; cbn in *; [lia|].
  destruct i as [|i]; [rewrite Nat.eqb_refl; reflexivity|].
  destruct (Nat.eqb_spec a (nth i l def)) as [E|]; [|rewrite IH by lia; reflexivity].
  exfalso. apply Hn. rewrite E. apply nth_In. lia.
Qed.

Lemma gather_length {A} p (def : A) l : length (gather p def l) = length p.
Proof. apply map_length. Qed.

Lemma unperm_length p idx : length (unperm p idx) = length p.
Proof. unfold unperm. rewrite map_length, seq_length. reflexivity. Qed.

Lemma gather_unperm p r idx : is_perm p r -> length idx = r -> gather p 0 (unperm p idx) = idx.
Proof.
  intros Hp Hl. pose proof (is_perm_length _ _ Hp) as Hpl.
  apply (nth_ext_len _ _ 0); [rewrite gather_length; congruence|].
  intros i Hi. rewrite gather_length in Hi. unfold gather.
  rewrite (nth_map_in _ p i 0) by exact Hi.
  assert (Hin : In (nth i p 0) p) by (apply nth_In; exact Hi).
  unfold unperm. rewrite nth_map_seq by (rewrite Hpl; apply (is_perm_in _ _ _ Hp); exact Hin).
  rewrite index_of_nth; [reflexivity| |exact Hi]. apply (is_perm_nodup _ _ Hp).
Qed.

Lemma unperm_gather p r idx : is_perm p r -> length idx = r -> unperm p (gather p 0 idx) = idx.
Proof.
  intros Hp Hl. pose proof (is_perm_length _ _ Hp) as Hpl.
  apply (nth_ext_len _ _ 0); [rewrite unperm_length; congruence|].
  intros i Hi. rewrite unperm_length in Hi. unfold unperm. rewrite nth_map_seq by exact Hi.
  assert (Hin : In i p) by (apply (is_perm_in _ _ _ Hp); lia).
  unfold gather. rewrite (nth_map_in _ p _ 0) by (apply index_of_lt; exact Hin).
  rewrite nth_index_of by exact Hin. reflexivity.
Qed.

Lemma valid_gather p r idx s : is_perm p r -> length s = r -> valid idx s -> valid (gather p 0 idx) (gather p 0 s).
Proof.
  intros Hp Hs Hv. apply valid_intro; [rewrite !gather_length; reflexivity|].
  intros d Hd. rewrite gather_length in Hd. unfold gather. rewrite !(nth_map_in _ p d 0) by exact Hd.
  apply valid_nth; [exact Hv|]. rewrite Hs. apply (is_perm_in _ _ _ Hp). apply nth_In. exact Hd.
Qed.

Lemma valid_gather_sub p idx s : (forall d, In d p -> d < length s) -> valid idx s ->
  valid (gather p 0 idx) (gather p 0 s).
Proof.
  intros Hp Hv. apply valid_intro; [rewrite !gather_length; reflexivity|].
  intros d Hd. rewrite gather_length in Hd. unfold gather. rewrite !(nth_map_in _ p d 0) by exact Hd.
  apply valid_nth; [exact Hv|]. apply Hp. apply nth_In. exact Hd.
Qed.

Lemma valid_unperm p r idx s : is_perm p r -> length s = r -> valid idx s -> valid (unperm p idx) (unperm p s).
Proof.
  intros Hp Hs Hv. pose proof (is_perm_length _ _ Hp) as Hpl.
  apply valid_intro; [rewrite !unperm_length; reflexivity|].
  intros d Hd. rewrite unperm_length in Hd. unfold unperm. rewrite !nth_map_seq by exact Hd.
  apply valid_nth; [exact Hv|]. rewrite Hs, <- Hpl. apply index_of_lt.
  apply (is_perm_in _ _ _ Hp). lia.
Qed.

(** inverse permutation *)
Definition inv_perm (p : list nat) : list nat := map (fun d => index_of d p) (seq 0 (length p)).

Lemma inv_perm_perm p r : is_perm p r -> is_perm (inv_perm p) r.
Proof.
  intros Hp. pose proof (is_perm_length _ _ Hp) as Hl. unfold is_perm.
  apply NoDup_Permutation_bis.
  - unfold inv_perm. rewrite Hl.
    assert (Hnd : forall l, NoDup l -> (forall d, In d l -> d < r) -> NoDup (map (fun d => index_of d p) l)).
    { induction l as [|a l IH]; intros Hn Hin; cbn; constructor.
      - intros Hc. apply in_map_iff in Hc as (b & Hb & Hb').
        assert (Ha : In a p) by (apply (is_perm_in _ _ _ Hp); apply Hin; left; reflexivity).
        assert (Hbp : In b p) by (apply (is_perm_in _ _ _ Hp); apply Hin; right; exact Hb').
        assert (a = b) by (rewrite <- (nth_index_of a p 0 Ha), <- (nth_index_of b p 0 Hbp); congruence).
        inversion Hn; subst. contradiction.
      - apply IH; [inversion Hn; assumption|]. intros d Hd. apply Hin. right. exact Hd. }
    apply Hnd; [apply seq_NoDup|]. intros d Hd. apply in_seq in Hd. lia.
  - unfold inv_perm. rewrite map_length, !seq_length. lia.
  - intros d Hd. unfold inv_perm in Hd. apply in_map_iff in Hd as (e & <- & He).
    apply in_seq in He. apply in_seq. split; [lia|]. cbn.
    rewrite <- Hl. apply index_of_lt. apply (is_perm_in _ _ _ Hp). lia.
Qed.

Lemma gather_inv_perm p idx : gather (inv_perm p) 0 idx = unperm p idx.
Proof. unfold gather, inv_perm, unperm. rewrite map_map. reflexivity. Qed.

Lemma unperm_inv_perm p r idx : is_perm p r -> length idx = r -> unperm (inv_perm p) idx = gather p 0 idx.
Proof.
  intros Hp Hl. pose proof (inv_perm_perm _ _ Hp) as Hi.
  assert (E : idx = gather (inv_perm p) 0 (gather p 0 idx)).
  { rewrite gather_inv_perm. symmetry. apply (unperm_gather p r); assumption. }
  rewrite E at 1. apply (unperm_gather _ r); [exact Hi|]. rewrite gather_length. apply is_perm_length. exact Hp.
Qed.

(** argsort of a permutation is its inverse *)
Definition ltk (a b : Z * nat) : Prop := (fst a < fst b)%Z.

Lemma sorted_perm_unique (l l' : list (Z * nat)) :
  StronglySorted ltk l -> StronglySorted ltk l' -> Permutation l l' -> l = l'.
Proof.
  revert l'. induction l as [|a l IH]; intros l' H1 H2 Hp.
  - apply Permutation_nil in Hp. congruence.
  - destruct l' as [|b l']; [apply Permutation_sym, Permutation_nil in Hp; discriminate|].
    inversion H1 as [|? ? Hs1 Hf1]; subst. inversion H2 as [|? ? Hs2 Hf2]; subst.
    assert (a = b) as ->.
    { assert (Ha : In a (b :: l')) by (apply (Permutation_in _ Hp); left; reflexivity).
      assert (Hb : In b (a :: l)) by (apply (Permutation_in _ (Permutation_sym Hp)); left; reflexivity).
      destruct Ha as [|Ha]; [congruence|]. destruct Hb as [|Hb]; [congruence|].
      rewrite Forall_forall in Hf1, Hf2. specialize (Hf1 _ Hb). specialize (Hf2 _ Ha).
      unfold ltk in *. lia. }
    f_equal. apply IH; auto. apply Permutation_cons_inv in Hp. exact Hp.
Qed.

Lemma insert_by_perm kv l : Permutation (insert_by kv l) (kv :: l).
Proof.
  induction l as [|h l IH]; cbn; [reflexivity|].
  destruct (fst kv <=? fst h)%Z; [reflexivity|].
  rewrite IH. apply perm_swap.
Qed.

Lemma insert_by_sorted kv l : StronglySorted ltk l -> ~ In (fst kv) (map fst l) ->
  StronglySorted ltk (insert_by kv l).
Proof.
  induction l as [|h l IH]; intros Hs Hn; cbn.
  - repeat constructor.
  - inversion Hs as [|? ? Hs' Hf]; subst. cbn in Hn.
    destruct (Z.leb_spec (fst kv) (fst h)) as [Hle|Hgt].
    + assert (Hlt : (fst kv < fst h)%Z) by (assert (fst kv <> fst h) by (intro; apply Hn; left; congruence); lia).
      constructor; [exact Hs|]. constructor; [exact Hlt|].
      rewrite Forall_forall in *. intros x Hx. specialize (Hf x Hx). unfold ltk in *. lia.
    + constructor; [apply IH; [exact Hs'|tauto]|].
      rewrite Forall_forall in *. intros x Hx.
      apply (Permutation_in _ (insert_by_perm kv l)) in Hx. destruct Hx as [<-|Hx].
      * unfold ltk. lia.
      * apply Hf. exact Hx.
Qed.

Lemma sort_perm l : Permutation (fold_right insert_by [] l) l.
Proof. induction l as [|a l IH]; cbn; [reflexivity|]. rewrite insert_by_perm, IH. reflexivity. Qed.

Lemma sort_sorted l : NoDup (map fst l) -> StronglySorted ltk (fold_right insert_by [] l).
Proof.
  induction l as [|a l IH]; cbn; intros H; [constructor|].
  inversion H; subst. apply insert_by_sorted; [auto|].
  intros Hc. assert (Permutation (map fst (fold_right insert_by [] l)) (map fst l)) as Hp
    by (apply Permutation_map; apply sort_perm).
  apply (Permutation_in _ Hp) in Hc. contradiction.
Qed.

Lemma map_fst_combine_seq (l : list Z) n : map fst (combine l (seq n (length l))) = l.
Proof. revert n; induction l as [|a l IH]; intros n; cbn; [reflexivity|]. rewrite IH. reflexivity. Qed.

Lemma in_combine_seq (l : list Z) n k v :
  In (k, v) (combine l (seq n (length l))) <-> n <= v < n + length l /\ nth (v - n) l 0%Z = k.
Proof.
  revert n; induction l as [|a l IH]; intros n; cbn; [split; [tauto|lia]|].
  rewrite IH. split.
  - intros [H|[H1 H2]].
    + injection H as -> ->. rewrite Nat.sub_diag. split; [lia|reflexivity].
    + split; [lia|]. replace (v - n) with (S (v - S n)) by lia. exact H2.
  - intros [H1 H2]. destruct (Nat.eq_dec v n) as [->|Hne].
    + left. rewrite Nat.sub_diag in H2. congruence.
    + right. split; [lia|]. replace (v - n) with (S (v - S n)) in H2 by lia. exact H2.
Qed.

Lemma StronglySorted_seq_key (f : nat -> nat) a n :
  StronglySorted ltk (map (fun d => (Z.of_nat d, f d)) (seq a n)).
Proof.
  revert a; induction n as [|n IH]; intros a; cbn; constructor; auto.
  rewrite Forall_forall. intros x Hx. apply in_map_iff in Hx as (d & <- & Hd).
  apply in_seq in Hd. unfold ltk. cbn. lia.
Qed.

Lemma argsort_perm p r : is_perm p r -> argsort (map Z.of_nat p) = inv_perm p.
Proof.
  intros Hp. pose proof (is_perm_length _ _ Hp) as Hl. unfold argsort.
  pose proof (is_perm_nodup _ _ Hp) as Hnd.
  assert (Hndz : NoDup (map Z.of_nat p)).
  { apply FinFun.Injective_map_NoDup; [intros a b; lia|exact Hnd]. }
  rewrite (sorted_perm_unique _ (map (fun d => (Z.of_nat d, index_of d p)) (seq 0 r))).
  - rewrite map_map. unfold inv_perm. rewrite Hl. reflexivity.
  - apply sort_sorted. rewrite map_fst_combine_seq. exact Hndz.
  - apply StronglySorted_seq_key.
  - rewrite sort_perm. apply NoDup_Permutation_bis.
    + apply (NoDup_map_inv fst). rewrite map_fst_combine_seq. exact Hndz.
    + rewrite map_length, seq_length, combine_length, seq_length, map_length. lia.
    + intros [k v] Hin. apply in_combine_seq in Hin. rewrite map_length, Nat.sub_0_r in Hin.
      destruct Hin as [Hv Hk]. apply in_map_iff. exists (nth v p 0).
      rewrite (nth_map_in Z.of_nat p v 0) in Hk by lia. split.
      * f_equal; [exact Hk|]. apply index_of_nth; [exact Hnd|lia].
      * apply in_seq. split; [lia|]. cbn. apply (is_perm_in _ _ _ Hp). apply nth_In. lia.
Qed.

(** front ++ axes is a permutation *)
Definition front_of (nax : list nat) (r : nat) : list nat := filter (fun d => negb (memn d nax)) (seq 0 r).

Lemma memn_spec x l : memn x l = true <-> In x l.
Proof.
  unfold memn. rewrite existsb_exists. split.
  - intros (y & Hy & E). apply Nat.eqb_eq in E. congruence.
  - intros H. exists x. split; [exact H|apply Nat.eqb_refl].
Qed.

Lemma nodupb_spec l : nodupb l = true <-> NoDup l.
Proof.
  induction l as [|a l IH]; cbn; [split; [constructor|reflexivity]|].
  rewrite andb_true_iff, negb_true_iff, IH. split.
  - intros [H1 H2]. constructor; [|exact H2]. intros Hc. apply memn_spec in Hc. congruence.
  - intros H. inversion H; subst. split; [|assumption].
    destruct (memn a l) eqn:E; [|reflexivity]. apply memn_spec in E. contradiction.
Qed.

Lemma in_front nax r d : In d (front_of nax r) <-> d < r /\ ~ In d nax.
Proof.
  unfold front_of. rewrite filter_In, in_seq, negb_true_iff. rewrite <- memn_spec.
  destruct (memn d nax); split; intros [H1 H2]; split; try lia; congruence.
Qed.

Lemma NoDup_app_intro {A} (l l' : list A) : NoDup l -> NoDup l' -> (forall x, In x l -> ~ In x l') -> NoDup (l ++ l').
Proof.
  induction l as [|a l IH]; intros H1 H2 H3; cbn; [exact H2|].
  inversion H1; subst. constructor.
  - rewrite in_app_iff. intros [Hc|Hc]; [contradiction|]. apply (H3 a); [left; reflexivity|exact Hc].
  - apply IH; auto. intros x Hx. apply H3. right. exact Hx.
Qed.

Lemma front_perm nax r : NoDup nax -> (forall d, In d nax -> d < r) -> is_perm (front_of nax r ++ nax) r.
Proof.
  intros H1 H2. unfold is_perm. apply NoDup_Permutation.
  - apply NoDup_app_intro; [|exact H1|].
    + unfold front_of. apply NoDup_filter. apply seq_NoDup.
    + intros x Hx. apply in_front in Hx. tauto.
  - apply seq_NoDup.
  - intros x. rewrite in_app_iff, in_front, in_seq. split.
    + intros [[Hx _]|Hx]; [lia|]. specialize (H2 _ Hx). lia.
    + intros Hx. destruct (in_dec Nat.eq_dec x nax); [right; assumption|left; split; [lia|assumption]].
Qed.

Lemma front_length nax r : NoDup nax -> (forall d, In d nax -> d < r) -> length (front_of nax r) = r - length nax.
Proof.
  intros H1 H2. pose proof (is_perm_length _ _ (front_perm _ _ H1 H2)) as H. rewrite app_length in H. lia.
Qed.

Lemma gather_app p q {A} (def : A) l : gather (p ++ q) def l = gather p def l ++ gather q def l.
Proof. apply map_app. Qed.

Section TP.
Context {K : CRing}.
Implicit Types t u : tensor K.

Lemma gather_seq_id (l : list nat) : gather (seq 0 (length l)) 0 l = l.
Proof.
  apply (nth_ext_len _ _ 0); [rewrite gather_length, seq_length; reflexivity|].
  intros i Hi. rewrite gather_length, seq_length in Hi. unfold gather.
  rewrite nth_map_seq by exact Hi. reflexivity.
Qed.

Lemma seq_is_perm r : is_perm (seq 0 r) r.
Proof. apply Permutation_refl. Qed.

Lemma get_permute t p idx : is_perm p (rank t) -> valid idx (shp t) ->
  get (permute_nat t p) (gather p 0 idx) = get t idx.
Proof.
  intros Hp Hv. unfold permute_nat. rewrite get_make.
  - rewrite (unperm_gather p (rank t)); auto. apply valid_length. exact Hv.
  - apply (valid_gather p (rank t)); auto.
Qed.

Lemma get_permute' t p idx : is_perm p (rank t) -> valid idx (gather p 0 (shp t)) ->
  get (permute_nat t p) idx = get t (unperm p idx).
Proof. intros Hp Hv. unfold permute_nat. rewrite get_make by exact Hv. reflexivity. Qed.

Lemma permute_id t : wf t -> permute_nat t (seq 0 (rank t)) = t.
Proof.
  intros H. apply t_ext; auto; [apply wf_make|apply gather_seq_id|].
  intros idx Hv. cbn in Hv. unfold permute_nat. rewrite get_make by exact Hv.
  unfold rank in *. rewrite gather_seq_id in Hv.
  f_equal. rewrite <- (gather_seq_id idx) at 2.
  pose proof (valid_length _ _ Hv) as Hl. rewrite <- Hl.
  rewrite <- (gather_seq_id idx) at 2. rewrite (unperm_gather _ (length idx)); auto using seq_is_perm.
  symmetry. apply gather_seq_id.
Qed.

Lemma permute_inv t p : wf t -> is_perm p (rank t) -> permute_nat (permute_nat t p) (inv_perm p) = t.
Proof.
  intros Hw Hp. pose proof (is_perm_length _ _ Hp) as Hpl.
  apply t_ext; auto; [apply wf_make| |].
  - cbn. rewrite gather_inv_perm. apply (unperm_gather p (rank t)); [exact Hp|reflexivity].
  - intros idx Hv. cbn in Hv. rewrite gather_inv_perm in Hv.
    rewrite (unperm_gather p (rank t)) in Hv by auto.
    pose proof (valid_length _ _ Hv) as Hl. fold (rank t) in Hl.
    unfold permute_nat at 1. rewrite get_make.
    + rewrite (unperm_inv_perm p (rank t)) by auto. apply get_permute; assumption.
    + cbn. rewrite gather_inv_perm. rewrite (unperm_gather p (rank t)) by auto. exact Hv.
Qed.

Lemma permute_inv' t p : wf t -> is_perm p (rank t) -> permute_nat (permute_nat t (inv_perm p)) p = t.
Proof.
  intros Hw Hp. pose proof (is_perm_length _ _ Hp) as Hpl. pose proof (inv_perm_perm _ _ Hp) as Hi.
  apply t_ext; auto; [apply wf_make| |].
  - cbn. rewrite gather_inv_perm. apply (gather_unperm p (rank t)); [exact Hp|reflexivity].
  - intros idx Hv. cbn in Hv. rewrite gather_inv_perm in Hv.
    rewrite (gather_unperm p (rank t)) in Hv by auto.
    pose proof (valid_length _ _ Hv) as Hl. fold (rank t) in Hl.
    unfold permute_nat at 1. rewrite get_make.
    + rewrite <- gather_inv_perm. apply get_permute; assumption.
    + cbn. rewrite gather_inv_perm. rewrite (gather_unperm p (rank t)) by auto. exact Hv.
Qed.

Lemma torch_permute_ok t p : is_perm p (rank t) -> torch_permute t (map Z.of_nat p) = Ok (permute_nat t p).
Proof.
  intros Hp. pose proof (is_perm_length _ _ Hp) as Hl. unfold torch_permute.
  rewrite map_length, Hl, Nat.eqb_refl. cbn [negb].
  replace (forallb _ (map Z.of_nat p)) with true.
  - cbn [negb].
    assert (E : map (fun z => Z.to_nat (if (z <? 0)%Z then (z + Z.of_nat (rank t))%Z else z)) (map Z.of_nat p) = p).
    { rewrite map_map. rewrite <- (map_id p) at 2. apply map_ext. intros a.
      destruct (Z.ltb_spec (Z.of_nat a) 0); lia. }
    rewrite E. replace (nodupb p) with true; [reflexivity|].
    symmetry. apply nodupb_spec. apply (is_perm_nodup _ _ Hp).
  - symmetry. apply forallb_forall. intros z Hz. apply in_map_iff in Hz as (d & <- & Hd).
    apply (is_perm_in _ _ _ Hp) in Hd. apply andb_true_iff. split; [apply Z.leb_le|apply Z.ltb_lt]; lia.
Qed.

End TP.
