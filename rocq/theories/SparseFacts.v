(** Values of the sparse matrix operations of [Sparse]. *)
From Coq Require Import List Arith ZArith Lia Bool String Ring.
From Verif Require Import Base Sums Tensor TensorFacts Sparse.
Import ListNotations.

Section SF.
Context {K : CRing}.
Add Ring Kring : (cr_th K).
Open Scope K_scope.
Implicit Types (m : smat K) (t : tensor K).
Notation ent := (list (nat * nat * K)).

Lemma eg_nil i j : ent_get (K := K) [] i j = 0. Proof. reflexivity. Qed.
Lemma eg_app (l l' : ent) i j : ent_get (l ++ l') i j = ent_get l i j + ent_get l' i j.
Proof. apply sumL_app. Qed.
Lemma eg_cons e (l : ent) i j : ent_get (e :: l) i j = (if at_pos i j e then snd e else 0) + ent_get l i j.
Proof. reflexivity. Qed.
Lemma at_pos_spec i j (e : nat * nat * K) : at_pos i j e = true <-> fst (fst e) = i /\ snd (fst e) = j.
Proof. unfold at_pos. rewrite andb_true_iff, !Nat.eqb_eq. tauto. Qed.
Lemma in_size_spec r c (e : nat * nat * K) : in_size r c e = true <-> (fst (fst e) < r /\ snd (fst e) < c)%nat.
Proof. unfold in_size. rewrite andb_true_iff, !Nat.ltb_lt. tauto. Qed.
Lemma eg_zero (l : ent) i j : (forall e, In e l -> at_pos i j e = true -> snd e = 0) -> ent_get l i j = 0.
Proof. intros H. apply sumL_zero. intros e He. destruct (at_pos i j e) eqn:E; [apply H; assumption|reflexivity]. Qed.
Lemma mget_out m i j : s_wf m -> (s_rows m <= i \/ s_cols m <= j)%nat -> mget m i j = 0.
Proof.
  intros Hw Ho. apply eg_zero. intros e He Hp. unfold s_wf in Hw. rewrite Forall_forall in Hw. specialize (Hw e He).
  apply in_size_spec in Hw. apply at_pos_spec in Hp. lia.
Qed.

(** ** structure *)
Lemma existsb_pos (l : ent) i j : existsb (at_pos i j) l = true <-> exists v, In ((i, j), v) l.
Proof.
  rewrite existsb_exists. split.
  - intros ([[a b] v] & Hin & H). apply at_pos_spec in H as [<- <-]. exists v. exact Hin.
  - intros [v Hv]. exists ((i, j), v). split; [exact Hv|]. apply at_pos_spec. auto.
Qed.
Lemma in_stored (l : ent) r c i j : In (i, j) (stored l r c) <-> (i < r /\ j < c)%nat /\ exists v, In ((i, j), v) l.
Proof.
  unfold stored. rewrite in_flat_map. split.
  - intros (a & Ha & H). apply in_flat_map in H as (b & Hb & H). destruct (existsb (at_pos a b) l) eqn:E; [|destruct H].
    destruct H as [[= -> ->]|[]]. apply in_seq in Ha, Hb. apply existsb_pos in E. split; [lia|exact E].
  - intros [[Hi Hj] Hv]. exists i. split; [apply in_seq; lia|]. apply in_flat_map. exists j. split; [apply in_seq; lia|].
    rewrite (proj2 (existsb_pos l i j) Hv). left. reflexivity.
Qed.
Lemma nodup_flat_row (l : ent) i r : NoDup r -> NoDup (flat_map (fun j => if existsb (at_pos i j) l then [(i, j)] else []) r).
Proof.
  induction r as [|j r IH]; intros Hn; [constructor|]. apply NoDup_cons_iff in Hn as [Hni Hn]. cbn. destruct (existsb (at_pos i j) l); [|apply IH, Hn].
  cbn. constructor; [|apply IH, Hn]. intros H. apply in_flat_map in H as (k & Hk & H). destruct (existsb _ l); [|destruct H]. destruct H as [[= ->]|[]]. contradiction.
Qed.
Lemma stored_nodup (l : ent) r c : NoDup (stored l r c).
Proof.
  unfold stored. assert (G : forall s, NoDup s -> NoDup (flat_map (fun i => flat_map (fun j => if existsb (at_pos i j) l then [(i, j)] else []) (seq 0 c)) s)).
  { induction s as [|i s IH]; intros Hn; [constructor|]. apply NoDup_cons_iff in Hn as [Hni Hn]. cbn.
    assert (A : forall (u v : list (nat * nat)), NoDup u -> NoDup v -> (forall x, In x u -> ~ In x v) -> NoDup (u ++ v)).
    { induction u as [|x u IHu]; intros v Hu Hv Hd; [exact Hv|]. apply NoDup_cons_iff in Hu as [H1 H2]. cbn. constructor.
      - intros H. apply in_app_or in H as [H|H]; [contradiction|]. apply (Hd x); [left; reflexivity|exact H].
      - apply IHu; auto. intros y Hy. apply Hd. right. exact Hy. }
    apply A; [apply nodup_flat_row, seq_NoDup|apply IH, Hn|].
    intros [a b] H1 H2. apply in_flat_map in H1 as (j & _ & H1). destruct (existsb _ l); [|destruct H1]. destruct H1 as [[= <- <-]|[]].
    apply in_flat_map in H2 as (i' & Hi' & H2). apply in_flat_map in H2 as (j' & _ & H2). destruct (existsb _ l); [|destruct H2]. destruct H2 as [[= -> ->]|[]]. contradiction. }
  apply G, seq_NoDup.
Qed.
Lemma wf_coalesce m : s_wf (coalesce m).
Proof.
  unfold s_wf. cbn. apply Forall_forall. intros e He. apply in_map_iff in He as ([i j] & <- & Hp). apply in_stored in Hp as [[Hi Hj] _].
  apply in_size_spec. auto.
Qed.
Lemma eg_listed (ps : list (nat * nat)) (f : nat -> nat -> K) i j : NoDup ps ->
  ent_get (map (fun p => (fst p, snd p, f (fst p) (snd p))) ps) i j = if existsb (fun p => Nat.eqb (fst p) i && Nat.eqb (snd p) j) ps then f i j else 0.
Proof.
  induction ps as [|[a b] ps IH]; intros Hn; [reflexivity|]. apply NoDup_cons_iff in Hn as [Hni Hn]. cbn [map existsb]. rewrite eg_cons, IH by exact Hn.
  unfold at_pos. cbn [fst snd]. destruct (Nat.eqb_spec a i) as [->|]; cbn [andb orb]; [|ring]. destruct (Nat.eqb_spec b j) as [->|]; cbn [orb]; [|ring].
  destruct (existsb _ ps) eqn:E; [|ring]. exfalso. apply existsb_exists in E as ([a' b'] & Hin & E). cbn in E. apply andb_true_iff in E as [E1 E2].
  apply Nat.eqb_eq in E1, E2. subst. contradiction.
Qed.
Lemma mget_coalesce m i j : s_wf m -> mget (coalesce m) i j = mget m i j.
Proof.
  intros Hw. unfold mget at 1, coalesce. cbn [s_ent]. rewrite eg_listed by apply stored_nodup. destruct (existsb _ _) eqn:E; [reflexivity|].
  symmetry. apply eg_zero. intros e He Hp. exfalso. apply at_pos_spec in Hp as [H1 H2].
  assert (H : existsb (fun p => Nat.eqb (fst p) i && Nat.eqb (snd p) j) (stored (s_ent m) (s_rows m) (s_cols m)) = true).
  { apply existsb_exists. exists (i, j). cbn. rewrite !Nat.eqb_refl. split; [|reflexivity]. apply in_stored.
    unfold s_wf in Hw. rewrite Forall_forall in Hw. pose proof (Hw e He) as Hs. apply in_size_spec in Hs. split; [lia|].
    exists (snd e). destruct e as [[a b] v]. cbn in *. subst. exact He. }
  congruence.
Qed.
Lemma eg_map_pos (l : ent) (h : nat * nat -> nat * nat) i j i' j' : (forall p, h p = (i', j') <-> p = (i, j)) ->
  ent_get (map (fun e => (h (fst e), snd e)) l) i' j' = ent_get l i j.
Proof.
  intros Hh. induction l as [|[[a b] v] l IH]; [reflexivity|]. cbn [map]. rewrite !eg_cons, IH. f_equal. cbn [fst snd].
  replace (at_pos i' j' (h (a, b), v)) with (at_pos i j (a, b, v)); [reflexivity|].
  apply Bool.eq_true_iff_eq. rewrite !at_pos_spec. cbn [fst snd]. specialize (Hh (a, b)). destruct (h (a, b)) as [a' b'] eqn:E. cbn [fst snd].
  split; [intros [-> ->]; assert (H : (a', b') = (i', j')) by (apply Hh; reflexivity)|intros [-> ->]; assert (H : (a, b) = (i, j)) by (apply Hh; reflexivity)]; injection H; auto.
Qed.
Lemma mget_t m i j : mget (sp_t m) j i = mget m i j.
Proof.
  unfold mget, sp_t. cbn [s_ent]. rewrite <- (eg_map_pos (s_ent m) (fun p => (snd p, fst p)) i j j i); [reflexivity|].
  intros [a b]. cbn. split; intros [= -> ->]; reflexivity.
Qed.
Lemma wf_t m : s_wf m -> s_wf (sp_t m).
Proof.
  intros H. unfold s_wf in *. cbn. apply Forall_forall. intros e He. apply in_map_iff in He as (e' & <- & He'). rewrite Forall_forall in H. specialize (H e' He').
  apply in_size_spec in H. apply in_size_spec. cbn. lia.
Qed.
Lemma sp_add_ok m m' r : sp_add m m' = Ok r -> s_rows m' = s_rows m /\ s_cols m' = s_cols m /\ r = mkS (s_tag m) (s_rows m) (s_cols m) (s_ent m ++ s_ent m').
Proof. unfold sp_add, same_size. destruct (Nat.eqb_spec (s_rows m) (s_rows m')); destruct (Nat.eqb_spec (s_cols m) (s_cols m')); cbn; try discriminate. intros [= <-]. auto. Qed.
Lemma sp_add_run m m' : s_rows m' = s_rows m -> s_cols m' = s_cols m -> sp_add m m' = Ok (mkS (s_tag m) (s_rows m) (s_cols m) (s_ent m ++ s_ent m')).
Proof. intros H1 H2. unfold sp_add, same_size. rewrite H1, H2, !Nat.eqb_refl. reflexivity. Qed.
Lemma wf_app g r c (l l' : ent) : s_wf (mkS g r c l) -> s_wf (mkS g r c l') -> s_wf (mkS g r c (l ++ l')).
Proof. unfold s_wf. cbn. intros. apply Forall_app. auto. Qed.
Lemma eg_mapv (f : K -> K) (l : ent) i j : f 0 = 0 -> (forall a b, f (a + b) = f a + f b) ->
  ent_get (map (fun e => (fst e, f (snd e))) l) i j = f (ent_get l i j).
Proof.
  intros H0 Ha. induction l as [|[[a b] v] l IH]; [symmetry; exact H0|]. cbn [map]. rewrite !eg_cons, IH, Ha. f_equal.
  unfold at_pos. cbn. destruct (_ && _); auto.
Qed.
Lemma mget_scale a m i j : mget (sp_scale a m) i j = a * mget m i j.
Proof. unfold mget, sp_scale, sp_map. cbn. apply (eg_mapv (kmul a)); [ring|intros; ring]. Qed.
Lemma wf_map f m : s_wf m -> s_wf (sp_map f m).
Proof.
  intros H. unfold s_wf in *. cbn. apply Forall_forall. intros e He. apply in_map_iff in He as (e' & <- & He'). rewrite Forall_forall in H. exact (H e' He').
Qed.
(** entrywise map of a coalesced matrix *)
Lemma mget_map_co f m i j : s_wf m -> f 0 = 0 -> mget (sp_map f (coalesce m)) i j = f (mget m i j).
Proof.
  intros Hw Hf. rewrite <- (mget_coalesce m i j Hw). unfold mget at 1 2. unfold sp_map, coalesce. cbn [s_ent].
  rewrite map_map. cbn [fst snd]. rewrite (eg_listed _ (fun a b => f (mget m a b))), eg_listed by apply stored_nodup. destruct (existsb _ _); [reflexivity|symmetry; exact Hf].
Qed.
Lemma sp_cat_ok m m' r : sp_cat m m' = Ok r -> s_cols m' = s_cols m /\ s_rows r = (s_rows m + s_rows m')%nat /\ s_cols r = s_cols m /\ s_tag r = s_tag m /\
  (s_wf m -> s_wf m' -> s_wf r /\ forall i j, mget r i j = if Nat.ltb i (s_rows m) then mget m i j else mget m' (i - s_rows m)%nat j).
Proof.
  unfold sp_cat. destruct (Nat.eqb_spec (s_cols m) (s_cols m')) as [E|]; [|discriminate]. intros [= <-]. cbn [s_rows s_cols s_tag]. repeat split; auto; intros.
  - unfold s_wf in *. cbn. apply Forall_app. split.
    + eapply Forall_impl; [|exact H]. cbn. intros e He. apply in_size_spec in He. apply in_size_spec. lia.
    + apply Forall_forall. intros e He. apply in_map_iff in He as (e' & <- & He'). rewrite Forall_forall in H0. specialize (H0 e' He'). apply in_size_spec in H0. apply in_size_spec. cbn. lia.
  - unfold mget at 1. cbn [s_ent]. rewrite eg_app. destruct (Nat.ltb_spec i (s_rows m)) as [Hi|Hi].
    + rewrite (eg_zero (map _ _)); [fold (mget m i j); ring|]. intros e He Hp. exfalso. apply in_map_iff in He as (e' & <- & He'). apply at_pos_spec in Hp. cbn in Hp. lia.
    + fold (mget m i j). rewrite (mget_out m i j H) by lia.
      transitivity (0 + mget m' (i - s_rows m)%nat j); [f_equal|ring].
      apply (eg_map_pos (s_ent m') (fun p => (fst p + s_rows m, snd p)%nat)). intros [a b]. cbn. split; [intros [= <- ->]; f_equal; lia|intros [= -> ->]; f_equal; lia].
Qed.
Lemma mget_row m i j : mget (sp_row m i) 0 j = mget m i j.
Proof.
  unfold mget, sp_row. cbn [s_ent]. induction (s_ent m) as [|[[a b] v] l IH]; [reflexivity|]. cbn [flat_map]. rewrite eg_app, eg_cons, IH. f_equal.
  unfold at_pos. cbn [fst snd]. destruct (Nat.eqb_spec a i); cbn [andb]; [|reflexivity]. rewrite eg_cons. unfold at_pos. cbn [fst snd Nat.eqb andb]. rewrite eg_nil. destruct (Nat.eqb b j); ring.
Qed.
Lemma mget_row_big m i r j : (0 < r)%nat -> mget (sp_row m i) r j = 0.
Proof.
  intros Hr. apply eg_zero. intros e He Hp. exfalso. cbn in He. apply in_flat_map in He as (e' & _ & He). destruct (Nat.eqb _ i); [|destruct He].
  destruct He as [<-|[]]. apply at_pos_spec in Hp. cbn in Hp. lia.
Qed.
Lemma wf_row m i : s_wf m -> s_wf (sp_row m i).
Proof.
  intros H. unfold s_wf in *. cbn. apply Forall_forall. intros e He. apply in_flat_map in He as (e' & He' & He). destruct (Nat.eqb _ i); [|destruct He].
  destruct He as [<-|[]]. rewrite Forall_forall in H. specialize (H e' He'). apply in_size_spec in H. apply in_size_spec. cbn. lia.
Qed.

(** ** products *)
Lemma tag_eqb_refl g : tag_eqb g g = true.
Proof. destruct g as [d v]. unfold tag_eqb. cbn. destruct d; cbn; destruct v; cbn; auto using Nat.eqb_refl. Qed.
Definition mm_ent (l l' : ent) : ent := flat_map (fun e => flat_map (fun e' => if Nat.eqb (snd (fst e)) (fst (fst e'))
          then [(fst (fst e), snd (fst e'), kmul (snd e) (snd e'))] else []) l') l.
Lemma eg_mm (l l' : ent) n i j : (forall e, In e l -> (snd (fst e) < n)%nat) -> ent_get (mm_ent l l') i j = sumf n (fun k => ent_get l i k * ent_get l' k j).
Proof.
  intros Hn. unfold mm_ent. induction l as [|[[a b] v] l IH].
  - symmetry. apply sumf_zero. intros k _. change (0 * ent_get l' k j = 0). ring.
  - cbn [flat_map]. rewrite eg_app, IH by (intros e He; apply Hn; right; exact He). cbn [fst snd].
    rewrite (sumf_ext n (fun k => ent_get (((a, b), v) :: l) i k * ent_get l' k j) (fun k => (if at_pos i k (a, b, v) then v else 0) * ent_get l' k j + ent_get l i k * ent_get l' k j)).
    2:{ intros k _. rewrite eg_cons. cbn [snd]. ring. }
    rewrite sumf_add. f_equal. specialize (Hn _ (or_introl eq_refl)). cbn in Hn.
    rewrite (sumf_single n b); [|exact Hn|intros k Hk Hne; unfold at_pos; cbn [fst snd]; destruct (Nat.eqb_spec b k) as [|]; [congruence|]; rewrite andb_false_r; ring].
    unfold at_pos. cbn [fst snd]. rewrite Nat.eqb_refl, andb_true_r.
    transitivity (sumL l' (fun e' => if Nat.eqb a i then if at_pos b j e' then v * snd e' else 0 else 0)).
    + clear IH. induction l' as [|[[c d] u] l' IHl]; [reflexivity|]. cbn [flat_map sumL]. rewrite eg_app, IHl. f_equal. cbn [fst snd]. unfold at_pos. cbn [fst snd].
      rewrite (Nat.eqb_sym c b). destruct (Nat.eqb b c); cbn [andb]; [rewrite eg_cons, eg_nil; unfold at_pos; cbn [fst snd]; destruct (Nat.eqb a i); cbn [andb]; [destruct (Nat.eqb d j); ring|ring]|].
      rewrite eg_nil. destruct (Nat.eqb a i); reflexivity.
    + destruct (Nat.eqb a i).
      * unfold ent_get. rewrite <- sumL_mul_l. apply sumL_ext. intros e _. destruct (at_pos b j e); ring.
      * rewrite sumL_zero; [ring|reflexivity].
Qed.
Lemma sp_mm_ok m m' r : sp_mm m m' = Ok r -> s_wf m -> s_wf m' -> s_cols m = s_rows m' /\ s_rows r = s_rows m /\ s_cols r = s_cols m' /\ s_tag r = s_tag m /\ s_wf r /\
  forall i j, mget r i j = sumf (s_cols m) (fun k => mget m i k * mget m' k j).
Proof.
  unfold sp_mm. destruct (tag_eqb _ _); [|discriminate]. cbn [andb]. destruct (Nat.eqb_spec (s_cols m) (s_rows m')) as [E|]; [|discriminate].
  intros [= <-] Hw Hw'. cbn [coalesce s_rows s_cols s_tag]. repeat split; auto.
  - apply wf_coalesce.
  - intros i j. fold (mm_ent (s_ent m) (s_ent m')). change (mget (coalesce (mkS (s_tag m) (s_rows m) (s_cols m') (mm_ent (s_ent m) (s_ent m')))) i j = sumf (s_cols m) (fun k => mget m i k * mget m' k j)).
    rewrite mget_coalesce.
    + apply eg_mm. intros e He. unfold s_wf in Hw. rewrite Forall_forall in Hw. specialize (Hw e He). apply in_size_spec in Hw. lia.
    + unfold s_wf. cbn. apply Forall_forall. intros e He. unfold mm_ent in He. apply in_flat_map in He as (e1 & H1 & He). apply in_flat_map in He as (e2 & H2 & He).
      destruct (Nat.eqb _ _); [|destruct He]. destruct He as [<-|[]]. unfold s_wf in *. rewrite Forall_forall in Hw, Hw'.
      specialize (Hw e1 H1). specialize (Hw' e2 H2). apply in_size_spec in Hw, Hw'. apply in_size_spec. cbn. lia.
Qed.
Lemma sp_mm_run m m' : s_tag m = s_tag m' -> s_cols m = s_rows m' -> exists r, sp_mm m m' = Ok r.
Proof. intros H1 H2. unfold sp_mm. rewrite H1, tag_eqb_refl, H2, Nat.eqb_refl. cbn. eauto. Qed.
(** structure of a product *)
Lemma sp_mm_stored m m' r i j : sp_mm m m' = Ok r -> s_wf m -> s_wf m' ->
  ((exists v, In ((i, j), v) (s_ent r)) <-> exists k u v, In ((i, k), u) (s_ent m) /\ In ((k, j), v) (s_ent m')).
Proof.
  unfold sp_mm. destruct (_ && _); [|discriminate]. intros [= <-] Hw Hw'. cbn [coalesce s_ent]. split.
  - intros [v Hv]. apply in_map_iff in Hv as ([a b] & E & Hv). cbn [fst snd] in E. apply in_stored in Hv as [_ [u Hu]]. cbn [s_ent] in Hu. injection E as -> -> _.
    apply in_flat_map in Hu as ([[i1 k1] v1] & H1 & Hu). apply in_flat_map in Hu as ([[k2 j2] v2] & H2 & Hu). cbn in Hu. destruct (Nat.eqb_spec k1 k2); [|destruct Hu].
    destruct Hu as [[= <- <- _]|[]]. subst k2. exists k1, v1, v2. auto.
  - intros (k & u & v & H1 & H2). eexists. apply in_map_iff. exists (i, j). split; [reflexivity|]. apply in_stored. cbn [s_ent s_rows s_cols].
    unfold s_wf in *. rewrite Forall_forall in Hw, Hw'. pose proof (Hw _ H1) as S1. pose proof (Hw' _ H2) as S2. apply in_size_spec in S1, S2. cbn in S1, S2. split; [lia|].
    exists (u * v). apply in_flat_map. exists ((i, k), u). split; [exact H1|]. apply in_flat_map. exists ((k, j), v). split; [exact H2|]. cbn. rewrite Nat.eqb_refl. left. reflexivity.
Qed.

Lemma sp_make_ok g r c (l : ent) m : sp_make g r c l = Ok m -> m = mkS g r c l /\ s_wf m.
Proof.
  unfold sp_make. destruct (forallb _ l) eqn:E; [|discriminate]. intros [= <-]. split; [reflexivity|]. unfold s_wf. cbn. apply Forall_forall. rewrite forallb_forall in E. exact E.
Qed.
Lemma sp_make_run g r c (l : ent) : (forall e, In e l -> (fst (fst e) < r /\ snd (fst e) < c)%nat) -> sp_make g r c l = Ok (mkS g r c l).
Proof. intros H. unfold sp_make. rewrite (proj2 (forallb_forall _ _)); [reflexivity|]. intros e He. apply in_size_spec, H, He. Qed.
Lemma max1_le l : forall i, In i l -> (i < max1 l)%nat.
Proof. induction l as [|a l IH]; intros i H; [destruct H|]. change (max1 (a :: l)) with (Nat.max (S a) (max1 l)). destruct H as [<-|H]; [lia|]. specialize (IH i H). lia. Qed.
Lemma max1_lub l n : (forall i, In i l -> (i < n)%nat) -> (max1 l <= n)%nat.
Proof. induction l as [|a l IH]; intros H; [apply Nat.le_0_l|]. change (max1 (a :: l)) with (Nat.max (S a) (max1 l)). pose proof (H a (or_introl eq_refl)). assert (max1 l <= n)%nat by (apply IH; intros; apply H; right; assumption). lia. Qed.
Lemma max1_eq l n : (forall i, In i l -> (i < n)%nat) -> (n = 0%nat \/ In (n - 1)%nat l) -> max1 l = n.
Proof. intros H1 H2. apply Nat.le_antisymm; [apply max1_lub, H1|]. destruct H2 as [->|H2]; [lia|]. apply max1_le in H2. lia. Qed.
Lemma wf_infer g (l : ent) : s_wf (sp_infer g l).
Proof.
  unfold s_wf, sp_infer. cbn. apply Forall_forall. intros e He. apply in_size_spec. split; apply max1_le.
  - exact (in_map (fun e : nat * nat * K => fst (fst e)) l e He).
  - exact (in_map (fun e : nat * nat * K => snd (fst e)) l e He).
Qed.

(** selection of rows by a 0/1 matrix *)
Lemma eg_select (rows : list nat) i j : ent_get (map (fun p => (fst p, snd p, kone (c := K))) (combine (seq 0%nat (List.length rows)) rows)) i j =
  if Nat.ltb i (List.length rows) && Nat.eqb (nth i rows 0%nat) j then 1 else 0.
Proof.
  assert (G : forall s, ent_get (map (fun p => (fst p, snd p, kone (c := K))) (combine (seq s (List.length rows)) rows)) (s + i)%nat j =
    (if Nat.ltb i (List.length rows) && Nat.eqb (nth i rows 0%nat) j then 1 else 0)).
  2:{ apply (G 0%nat). }
  revert i. induction rows as [|a rows IH]; intros i s; [reflexivity|]. cbn [List.length seq combine map]. rewrite eg_cons. unfold at_pos. cbn [fst snd].
  destruct i as [|i].
  - rewrite Nat.add_0_r, Nat.eqb_refl. cbn [andb nth]. change (Nat.ltb 0 (S (List.length rows))) with true. cbn [andb].
    rewrite eg_zero; [destruct (Nat.eqb a j); ring|]. intros e He Hp. exfalso. apply in_map_iff in He as ([p q] & <- & Hin). apply in_combine_l in Hin. apply in_seq in Hin. apply at_pos_spec in Hp. cbn in Hp. lia.
  - destruct (Nat.eqb_spec s (s + S i)); [lia|]. cbn [andb nth]. replace (s + S i)%nat with (S s + i)%nat by lia. rewrite IH.
    replace (Nat.ltb (S i) (S (List.length rows))) with (Nat.ltb i (List.length rows)); [ring|].
    destruct (Nat.ltb_spec i (List.length rows)); destruct (Nat.ltb_spec (S i) (S (List.length rows))); auto; lia.
Qed.
Lemma select_rows_ok m rows r : select_rows m rows = Ok r -> s_wf m ->
  s_rows r = List.length rows /\ s_cols r = s_cols m /\ s_tag r = s_tag m /\ s_wf r /\ (forall i, In i rows -> (i < s_rows m)%nat) /\
  forall i j, (i < List.length rows)%nat -> mget r i j = mget m (nth i rows 0%nat) j.
Proof.
  intros H Hw. unfold select_rows in H. destruct (sp_make _ _ _ _) as [sel|] eqn:Es; [|discriminate]. cbn [rbind] in H.
  apply sp_make_ok in Es as [-> Hs]. destruct (sp_mm_ok _ _ _ H Hs Hw) as (E1 & E2 & E3 & E4 & E5 & E6). cbn [s_rows s_cols s_tag] in *.
  assert (Hin : forall i, In i rows -> (i < s_rows m)%nat).
  { intros i Hi. apply In_nth_error in Hi as [p Hp]. unfold s_wf in Hs. cbn in Hs. rewrite Forall_forall in Hs.
    assert (Hl : (p < List.length rows)%nat) by (apply nth_error_Some; congruence).
    assert (Hc : In (p, i) (combine (seq 0%nat (List.length rows)) rows)).
    { assert (Hn : nth_error (combine (seq 0%nat (List.length rows)) rows) p = Some (p, i)).
      { assert (G : forall s q, nth_error rows q = Some i -> nth_error (combine (seq s (List.length rows)) rows) q = Some (s + q, i)%nat).
        { clear. induction rows as [|a rows IH]; intros s q Hq; [destruct q; discriminate|]. destruct q as [|q]; cbn in *; [injection Hq as ->; f_equal; f_equal; lia|].
          rewrite (IH (S s) q Hq). f_equal. f_equal. lia. }
        rewrite (G 0%nat p Hp). reflexivity. }
      eapply nth_error_In. exact Hn. }
    specialize (Hs _ (in_map (fun p => (fst p, snd p, kone (c := K))) _ _ Hc)). apply in_size_spec in Hs. cbn in Hs. lia. }
  repeat split; auto. intros i j Hi. rewrite E6. unfold mget at 1. cbn [s_ent].
  rewrite (sumf_single _ (nth i rows 0%nat)).
  - rewrite eg_select, Nat.eqb_refl. destruct (Nat.ltb_spec i (List.length rows)); [cbn; ring|lia].
  - apply Hin, nth_In, Hi.
  - intros k Hk Hne. rewrite eg_select. destruct (Nat.eqb_spec (nth i rows 0%nat) k); [congruence|]. rewrite andb_false_r. ring.
Qed.
Lemma select_rows_run m rows : (forall i, In i rows -> (i < s_rows m)%nat) -> exists r, select_rows m rows = Ok r.
Proof.
  intros H. unfold select_rows. rewrite sp_make_run.
  - cbn [rbind]. apply sp_mm_run; reflexivity.
  - intros e He. apply in_map_iff in He as ([p q] & <- & Hin). cbn. split; [apply in_combine_l, in_seq in Hin; lia|apply in_combine_r in Hin; apply H, Hin].
Qed.
End SF.
