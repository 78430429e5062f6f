(** Basic facts about the tensor model. *)
From Coq Require Import List Arith ZArith Lia Bool Permutation.
From Verif Require Import Base Sums Tensor.
Import ListNotations.

(** * Lists *)
Lemma updn_length {A} d (v : A) l : length (updn d v l) = length l.
Proof. revert d; induction l as [|a l IH]; intros [|d]; cbn; auto. Qed.

Lemma nth_updn {A} d (v : A) l e def :
  nth e (updn d v l) def = if Nat.eqb e d && Nat.ltb d (length l) then v else nth e l def.
Proof.
  revert d e; induction l as [|a l IH]; intros [|d] [|e]; cbn; auto.
  - rewrite andb_false_r. reflexivity.
  - rewrite IH. reflexivity.
Qed.

Lemma nth_updn_eq {A} d (v : A) l def : d < length l -> nth d (updn d v l) def = v.
Proof. intros H. rewrite nth_updn, Nat.eqb_refl. destruct (Nat.ltb_spec d (length l)); [reflexivity|lia]. Qed.

Lemma nth_updn_ne {A} d (v : A) l e def : e <> d -> nth e (updn d v l) def = nth e l def.
Proof. intros H. rewrite nth_updn. destruct (Nat.eqb_spec e d); [lia|reflexivity]. Qed.

Lemma updn_same {A} d (l : list A) def : updn d (nth d l def) l = l.
Proof. revert d; induction l as [|a l IH]; intros [|d]; cbn; auto. rewrite IH. reflexivity. Qed.

Lemma updn_updn {A} d (v w : A) l : updn d v (updn d w l) = updn d v l.
Proof. revert d; induction l as [|a l IH]; intros [|d]; cbn; auto. rewrite IH. reflexivity. Qed.

Lemma updn_comm {A} d e (v w : A) l : d <> e -> updn d v (updn e w l) = updn e w (updn d v l).
Proof.
  revert d e; induction l as [|a l IH]; intros [|d] [|e] H; cbn; auto; [lia|].
  rewrite IH by lia. reflexivity.
Qed.

Lemma updn_app1 {A} d (v : A) l l' : d < length l -> updn d v (l ++ l') = updn d v l ++ l'.
Proof.
  revert d; induction l as [|a l IH]; intros d H; cbn in H; [lia|]. destruct d; cbn; [reflexivity|].
  rewrite IH by lia. reflexivity.
Qed.

Lemma updn_app2 {A} d (v : A) l l' : length l <= d -> updn d v (l ++ l') = l ++ updn (d - length l) v l'.
Proof.
  revert d; induction l as [|a l IH]; intros d; cbn; intros H.
  - rewrite Nat.sub_0_r. reflexivity.
  - destruct d as [|d]; [lia|]. cbn; rewrite IH by lia. reflexivity.
Qed.

Lemma insertn_length {A} d (v : A) l : d <= length l -> length (insertn d v l) = S (length l).
Proof. intros H. unfold insertn. rewrite app_length, firstn_length. cbn. rewrite skipn_length. lia. Qed.

Lemma map2_length {A B C} (f : A -> B -> C) l l' : length (map2 f l l') = Nat.min (length l) (length l').
Proof. revert l'; induction l as [|a l IH]; intros [|b l']; cbn; auto. Qed.

Lemma map2_ext_in {A B C} (f g : A -> B -> C) l l' :
  (forall a b, In a l -> In b l' -> f a b = g a b) -> map2 f l l' = map2 g l l'.
Proof.
  revert l'; induction l as [|a l IH]; intros [|b l'] H; cbn; auto.
  rewrite H by (left; reflexivity). f_equal. apply IH. intros; apply H; right; assumption.
Qed.

Lemma nth_map2 {A B C} (f : A -> B -> C) l l' i da db dc :
  i < length l -> i < length l' -> nth i (map2 f l l') dc = f (nth i l da) (nth i l' db).
Proof.
  revert l' i; induction l as [|a l IH]; intros [|b l'] [|i]; cbn; intros H1 H2; try lia; auto.
  apply IH; lia.
Qed.

Lemma list_eqb_spec l l' : list_eqb Nat.eqb l l' = true <-> l = l'.
Proof.
  revert l'; induction l as [|a l IH]; intros [|b l']; cbn; split; intros H; try congruence; try discriminate.
  - apply andb_true_iff in H as [H1 H2]. apply Nat.eqb_eq in H1. apply IH in H2. congruence.
  - injection H as -> ->. rewrite Nat.eqb_refl. cbn. apply IH. reflexivity.
Qed.

Lemma list_eqb_refl l : list_eqb Nat.eqb l l = true.
Proof. apply list_eqb_spec. reflexivity. Qed.

Lemma eqidx_spec l l' : eqidx l l' = true <-> l = l'.
Proof. apply list_eqb_spec. Qed.

Lemma nth_ext_len {A} (l l' : list A) d :
  length l = length l' -> (forall i, i < length l -> nth i l d = nth i l' d) -> l = l'.
Proof. intros H1 H2. apply (nth_ext l l' d d); auto. Qed.

Lemma nth_seq0 i n d : i < n -> nth i (seq 0 n) d = i.
Proof. intros H. rewrite seq_nth by exact H. reflexivity. Qed.

Lemma nth_map_in {A B} (f : A -> B) l i da db : i < length l -> nth i (map f l) db = f (nth i l da).
Proof. intros H. rewrite (nth_indep _ db (f da)) by (rewrite map_length; exact H). apply map_nth. Qed.

Lemma nth_map_seq {B} (f : nat -> B) n i db : i < n -> nth i (map f (seq 0 n)) db = f i.
Proof. intros H. rewrite (nth_map_in f _ i 0) by (rewrite seq_length; exact H). rewrite nth_seq0 by exact H. reflexivity. Qed.

Lemma skipn_app_exact {A} (l l' : list A) n : length l = n -> skipn n (l ++ l') = l'.
Proof. intros <-. rewrite skipn_app, skipn_all, Nat.sub_diag. reflexivity. Qed.
Lemma firstn_app_exact {A} (l l' : list A) n : length l = n -> firstn n (l ++ l') = l.
Proof. intros <-. rewrite firstn_app, firstn_all, Nat.sub_diag. cbn. apply app_nil_r. Qed.

Lemma Forall2_app_split_r {A B} (R : A -> B -> Prop) l l1 l2 :
  Forall2 R l (l1 ++ l2) -> exists k1 k2, l = k1 ++ k2 /\ Forall2 R k1 l1 /\ Forall2 R k2 l2.
Proof.
  intros H. apply Forall2_app_inv_r in H. destruct H as (k1 & k2 & H1 & H2 & ->). eauto.
Qed.

(** * Row-major arithmetic *)
#[global] Arguments prodl : simpl never.
Lemma prodl_nil : prodl [] = 1.
Proof. reflexivity. Qed.
Lemma prodl_cons d s : prodl (d :: s) = d * prodl s.
Proof. reflexivity. Qed.

Lemma prodl_app s s' : prodl (s ++ s') = prodl s * prodl s'.
Proof. induction s as [|d s IH]; cbn [app]; [change (prodl []) with 1; lia|]. rewrite !prodl_cons, IH. lia. Qed.


Lemma valid_length idx s : valid idx s -> length idx = length s.
Proof. intros H. induction H; cbn; congruence. Qed.

Lemma valid_nth idx s d : valid idx s -> d < length s -> nth d idx 0 < nth d s 0.
Proof.
  intros H. revert d. induction H as [|i n is ns Hi Hv IH]; intros d Hd; cbn in *; [lia|].
  destruct d; [exact Hi|]. apply IH. lia.
Qed.

Lemma valid_intro idx s : length idx = length s -> (forall d, d < length s -> nth d idx 0 < nth d s 0) -> valid idx s.
Proof.
  revert idx; induction s as [|n s IH]; intros [|i idx] Hl H; cbn in Hl; try lia; constructor.
  - apply (H 0). cbn. lia.
  - apply IH; [lia|]. intros d Hd. apply (H (S d)). cbn. lia.
Qed.

Lemma valid_app i1 i2 s1 s2 : valid i1 s1 -> valid i2 s2 -> valid (i1 ++ i2) (s1 ++ s2).
Proof. apply Forall2_app. Qed.

Lemma valid_updn idx s d v n : valid idx s -> v < n -> valid (updn d v idx) (updn d n s).
Proof.
  intros H Hv. revert d. induction H as [|i m is ms Hi Hvl IH]; intros [|d]; cbn; constructor; auto.
  apply IH.
Qed.

Lemma valid_updn_l idx s d v : valid idx s -> d < length s -> v < nth d s 0 -> valid (updn d v idx) s.
Proof.
  intros H Hd Hv. rewrite <- (updn_same d s 0). apply valid_updn; assumption.
Qed.

Lemma ravel_lt idx s : valid idx s -> ravel s idx < prodl s.
Proof.
  intros H. induction H as [|i n is ns Hi Hv IH]; [rewrite prodl_nil; cbn; lia|].
  cbn [ravel]. rewrite prodl_cons. nia.
Qed.

Lemma unravel_valid s k : k < prodl s -> valid (unravel s k) s.
Proof.
  revert k; induction s as [|n s IH]; intros k H; cbn; [constructor|].
  rewrite prodl_cons in H. assert (prodl s <> 0) by nia. constructor.
  - apply Nat.div_lt_upper_bound; lia.
  - apply IH. apply Nat.mod_upper_bound. assumption.
Qed.

Lemma unravel_ravel idx s : valid idx s -> unravel s (ravel s idx) = idx.
Proof.
  intros H. induction H as [|i n is ns Hi Hv IH]; [reflexivity|].
  cbn [ravel unravel]. pose proof (ravel_lt _ _ Hv) as Hr.
  f_equal.
  - rewrite Nat.add_comm, Nat.div_add by lia. rewrite Nat.div_small by exact Hr. lia.
  - rewrite Nat.add_comm, Nat.mod_add by lia. rewrite Nat.mod_small by exact Hr. exact IH.
Qed.

Lemma ravel_unravel s k : k < prodl s -> ravel s (unravel s k) = k.
Proof.
  revert k; induction s as [|n s IH]; intros k H; cbn [unravel ravel].
  - rewrite prodl_nil in H. lia.
  - rewrite prodl_cons in H. assert (Hp : prodl s <> 0) by nia.
    rewrite IH by (apply Nat.mod_upper_bound; exact Hp).
    rewrite (Nat.div_mod k (prodl s) Hp) at 3. lia.
Qed.

Lemma unravel_length s k : length (unravel s k) = length s.
Proof. revert k; induction s; intros; cbn; auto. Qed.

Lemma ravel_app s1 s2 i1 i2 : length i1 = length s1 ->
  ravel (s1 ++ s2) (i1 ++ i2) = ravel s1 i1 * prodl s2 + ravel s2 i2.
Proof.
  revert i1; induction s1 as [|n s1 IH]; intros [|i i1] H; cbn in H; try lia; cbn [app ravel]; [lia|].
  rewrite IH by lia. rewrite prodl_app. lia.
Qed.

Lemma ravel_insert1 s1 s2 i1 i2 : length i1 = length s1 ->
  ravel (s1 ++ 1 :: s2) (i1 ++ 0 :: i2) = ravel (s1 ++ s2) (i1 ++ i2).
Proof.
  intros H. rewrite !ravel_app by exact H. cbn [ravel]. rewrite prodl_cons. lia.
Qed.

(** * Tensors *)
Section T.
Context {K : CRing}.
Implicit Types t u : tensor K.

Lemma shp_make g s (f : list nat -> K) : shp (tmake g s f) = s.
Proof. reflexivity. Qed.
Lemma ttag_make g s (f : list nat -> K) : ttag (tmake g s f) = g.
Proof. reflexivity. Qed.
Lemma wf_make g s (f : list nat -> K) : wf (tmake g s f).
Proof. unfold wf, tmake. cbn. rewrite map_length, seq_length. reflexivity. Qed.

Lemma get_make g s (f : list nat -> K) idx : valid idx s -> get (tmake g s f) idx = f idx.
Proof.
  intros H. unfold get, tmake. cbn. pose proof (ravel_lt _ _ H) as Hr.
  rewrite nth_map_seq by exact Hr. rewrite unravel_ravel by exact H. reflexivity.
Qed.

Lemma t_ext t u : wf t -> wf u -> ttag t = ttag u -> shp t = shp u ->
  (forall idx, valid idx (shp t) -> get t idx = get u idx) -> t = u.
Proof.
  destruct t as [g s d], u as [g' s' d']. unfold wf, get. cbn. intros H1 H2 -> -> H.
  f_equal. apply (nth_ext_len _ _ kzero); [congruence|]. intros i Hi. rewrite H1 in Hi.
  specialize (H (unravel s' i) (unravel_valid _ _ Hi)).
  rewrite (ravel_unravel _ _ Hi) in H. exact H.
Qed.

Lemma make_ext g s (f f' : list nat -> K) :
  (forall idx, valid idx s -> f idx = f' idx) -> tmake g s f = tmake g s f'.
Proof.
  intros H. apply t_ext; try apply wf_make; try reflexivity.
  intros idx Hv. cbn in Hv. rewrite !get_make by exact Hv. auto.
Qed.

Lemma make_get t : wf t -> tmake (ttag t) (shp t) (get t) = t.
Proof.
  intros H. apply t_ext; auto. apply wf_make. intros idx Hv. cbn in Hv. apply get_make. exact Hv.
Qed.

(** reshape *)
Lemma reshape_ok t s : prodl (shp t) = prodl s -> reshape t s = Ok (mkT (ttag t) s (dat t)).
Proof. intros H. unfold reshape. rewrite H, Nat.eqb_refl. reflexivity. Qed.

Lemma reshape_wf t s u : wf t -> reshape t s = Ok u -> wf u.
Proof.
  unfold reshape, wf. intros H. destruct (Nat.eqb_spec (prodl (shp t)) (prodl s)); [|discriminate].
  intros [= <-]. cbn. congruence.
Qed.

Lemma reshape_back t s u : reshape t s = Ok u -> reshape u (shp t) = Ok t.
Proof.
  unfold reshape. destruct (Nat.eqb_spec (prodl (shp t)) (prodl s)) as [E|]; [|discriminate].
  intros [= <-]. cbn. rewrite <- E, Nat.eqb_refl. destruct t; reflexivity.
Qed.

Lemma get_fold (g : tag) front back (d : list K) b i :
  valid b front -> get (mkT g (prodl front :: back) d) (ravel front b :: i) = get (mkT g (front ++ back) d) (b ++ i).
Proof.
  intros Hb. unfold get. cbn [shp dat]. rewrite ravel_app by (apply valid_length; exact Hb).
  cbn [ravel]. reflexivity.
Qed.

Lemma get_unsqueeze t d idx1 idx2 :
  length idx1 = d -> d <= rank t -> get (unsqueeze t d) (idx1 ++ 0 :: idx2) = get t (idx1 ++ idx2).
Proof.
  intros H1 H2. unfold get, unsqueeze, insertn. cbn [shp dat].
  rewrite ravel_insert1 by (rewrite firstn_length; unfold rank in H2; lia).
  rewrite firstn_skipn. reflexivity.
Qed.

Lemma wf_unsqueeze t d : wf t -> wf (unsqueeze t d).
Proof.
  unfold wf, unsqueeze, insertn. cbn. intros ->. rewrite prodl_app, prodl_cons.
  rewrite <- (firstn_skipn d (shp t)) at 1. rewrite prodl_app. lia.
Qed.

Lemma removen_app {A} (l1 l2 : list A) x d : length l1 = d -> removen d (l1 ++ x :: l2) = l1 ++ l2.
Proof.
  intros <-. unfold removen. rewrite firstn_app_exact by reflexivity.
  f_equal. change (x :: l2) with ([x] ++ l2). rewrite app_assoc. apply skipn_app_exact.
  rewrite app_length. cbn. lia.
Qed.

Lemma squeeze_unsqueeze t d : d <= rank t -> squeeze (unsqueeze t d) d = t.
Proof.
  intros H. unfold squeeze, unsqueeze, insertn. cbn [shp ttag dat]. unfold rank in H.
  assert (Hl : length (firstn d (shp t)) = d) by (rewrite firstn_length; lia).
  rewrite app_nth2 by lia. rewrite Hl, Nat.sub_diag. cbn [nth]. rewrite Nat.eqb_refl.
  rewrite removen_app by exact Hl. rewrite firstn_skipn. destruct t; reflexivity.
Qed.

Lemma unsqueeze_squeeze t d : d < rank t -> nth d (shp t) 0 = 1 -> unsqueeze (squeeze t d) d = t.
Proof.
  intros Hd H1. unfold squeeze. rewrite H1, Nat.eqb_refl. unfold unsqueeze, insertn, removen. cbn [shp ttag dat].
  unfold rank in Hd.
  assert (Hl : length (firstn d (shp t)) = d) by (rewrite firstn_length; lia).
  rewrite firstn_app_exact by exact Hl. rewrite skipn_app_exact by exact Hl.
  destruct t as [g s da]. cbn in *. f_equal. rewrite <- H1.
  rewrite <- (firstn_skipn d s) at 4. f_equal.
  rewrite <- (firstn_skipn d s) at 1. rewrite app_nth2 by lia. rewrite Hl, Nat.sub_diag.
  clear - Hd. revert d Hd. induction s as [|a s IH]; intros d Hd; cbn in *; [lia|].
  destruct d; [reflexivity|]. cbn. apply IH. lia.
Qed.

Lemma shp_squeeze_app t s1 s2 d : shp t = s1 ++ 1 :: s2 -> length s1 = d -> shp (squeeze t d) = s1 ++ s2.
Proof.
  intros H1 H2. unfold squeeze. rewrite H1. rewrite app_nth2 by lia.
  replace (d - length s1) with 0 by lia. cbn. apply removen_app. exact H2.
Qed.

Lemma get_squeeze_app t s1 s2 d i1 i2 : shp t = s1 ++ 1 :: s2 -> length s1 = d -> length i1 = d ->
  get (squeeze t d) (i1 ++ i2) = get t (i1 ++ 0 :: i2).
Proof.
  intros H1 H2 H3. unfold squeeze, get. rewrite H1. rewrite app_nth2 by lia.
  replace (d - length s1) with 0 by lia. cbn [nth Nat.eqb shp dat].
  rewrite removen_app by exact H2. f_equal. symmetry. apply ravel_insert1. lia.
Qed.

Lemma wf_squeeze t d : wf t -> d < rank t -> wf (squeeze t d).
Proof.
  intros H Hd. unfold squeeze. destruct (Nat.eqb_spec (nth d (shp t) 0) 1) as [E|]; [|exact H].
  unfold wf in *. cbn. rewrite H. unfold rank in Hd. clear - E Hd. unfold removen. rewrite prodl_app.
  destruct (nth_split (shp t) 0 Hd) as (l1 & l2 & Hs & Hl).
  rewrite E in Hs. rewrite Hs. rewrite firstn_app_exact by exact Hl.
  rewrite prodl_app, prodl_cons.
  replace (skipn (S d) (l1 ++ 1 :: l2)) with l2; [lia|].
  change (1 :: l2) with ([1] ++ l2). rewrite app_assoc. symmetry. apply skipn_app_exact.
  rewrite app_length. cbn. lia.
Qed.

Lemma ttag_squeeze t d : ttag (squeeze t d) = ttag t.
Proof. unfold squeeze. destruct (Nat.eqb _ _); reflexivity. Qed.

(** narrow *)
Lemma get_narrow t d a len idx :
  valid idx (updn d len (shp t)) -> get (narrow t d a len) idx = get t (updn d (nth d idx 0 + a) idx).
Proof. intros H. unfold narrow. rewrite get_make by exact H. reflexivity. Qed.

End T.
