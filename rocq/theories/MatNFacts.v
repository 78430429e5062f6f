(** One level of the separable boundary transform on a preprocessed tensor [b; s...] (two or three axes). *)
From Coq Require Import List Arith ZArith Lia Bool String Ring.
From Coq Require Import ZifyNat ZifyBool.
From Verif Require Import Base Sums Tensor TensorFacts Util Perm Plumb Accept Spec Conv1 Conv2 PadFacts CoreFacts Synthesis Filters Sep SepFacts Sparse SparseFacts SpecMat SparseMM LinAlg Mat1 MatN MatPre Mat1Facts.
Import ListNotations.
Ltac Zify.zify_post_hook ::= Z.div_mod_to_equations.
Lemma half_double c : (c mod 2 = 0)%nat -> (2 * (c / 2) = c)%nat. Proof. intros. lia. Qed.
Lemma map_half_even s : map (fun n => even_up n / 2)%nat s = map (fun n => n / 2)%nat (map even_up s).
Proof. rewrite map_map. reflexivity. Qed.

(** the default level of several axes *)
Lemma rmap_inv {A B : Type} (f : A -> result B) l : forall r, rmap f l = Ok r -> Forall2 (fun a b => f a = Ok b) l r.
Proof.
  induction l as [|a l IH]; intros r H; cbn [rmap] in H; [injection H as <-; constructor|].
  apply rbind_ok in H as (b & Hb & H). apply rbind_ok in H as (r' & Hr & H). injection H as <-. constructor; auto.
Qed.
Lemma fold_min_in l : forall z, In (fold_left Z.min l z) (z :: l) /\ Forall (fun y => fold_left Z.min l z <= y)%Z (z :: l).
Proof.
  induction l as [|y l IH]; intros z; cbn [fold_left]; [split; [left; reflexivity|repeat constructor; lia]|].
  destruct (IH (Z.min z y)) as [H1 H2]. inversion H2 as [|? ? H3 H4]; subst. split.
  - destruct H1 as [H1|H1]; [|right; right; exact H1]. destruct (Z.min_spec z y) as [[_ E]|[_ E]]; rewrite E in H1 |- *; [left|right; left]; exact H1.
  - constructor; [lia|]. constructor; [lia|exact H4].
Qed.
Lemma mat_level_n_depth L s lev : 2 <= L -> mat_level_n L s = Ok lev -> default_depth L s (Z.to_nat lev).
Proof.
  intros HL H. unfold mat_level_n in H. apply rbind_ok in H as (ls & H1 & H). apply rmap_inv in H1. destruct ls as [|l r]; [discriminate|]. injection H as <-.
  assert (F : Forall2 (fun n l => default_depth L [n] (Z.to_nat l)) s (l :: r)) by (clear -HL H1; induction H1; constructor; auto using mat_level_depth).
  destruct (fold_min_in r l) as [Hin Hle]. set (z := fold_left Z.min r l) in *. clearbody z. remember (l :: r) as ls eqn:E. clear E H1.
  assert (P : forall n, In n s -> exists y, (z <= y)%Z /\ default_depth L [n] (Z.to_nat y)).
  { clear Hin. induction F as [|n y s' ls' Hy F IH]; intros n' Hn'; [destruct Hn'|]. inversion Hle; subst. destruct Hn' as [<-|Hn']; [eauto|auto]. }
  assert (Q : exists n, In n s /\ default_depth L [n] (Z.to_nat z)).
  { clear P Hle. induction F as [|n y s' ls' Hy F IH]; [destruct Hin|]. destruct Hin as [->|Hin]; [exists n; split; [left; reflexivity|exact Hy]|]. destruct (IH Hin) as (n' & A & B). exists n'. split; [right; exact A|exact B]. }
  split; [|split].
  - apply Forall_forall. intros n Hn. destruct (P n Hn) as (y & _ & (Hp & _ & _)). inversion Hp; assumption.
  - intros Hz. apply Forall_forall. intros n Hn. destruct (P n Hn) as (y & Hy & (_ & Hp & _)). specialize (Hp ltac:(lia)). inversion Hp as [|? ? Hp' _]; subst.
    pose proof (Nat.pow_le_mono_r 2 (Z.to_nat z) (Z.to_nat y) ltac:(lia) ltac:(lia)). nia.
  - destruct Q as (n & Hn & (_ & _ & He)). apply Exists_exists. exists n. split; [exact Hn|]. inversion He as [? ? He'|? ? He']; subst; [exact He'|inversion He'].
Qed.
Lemma mat_level_n_ex L s : s <> [] -> Forall (fun n => 0 < n) s -> exists lev, mat_level_n L s = Ok lev.
Proof.
  intros Hs Hp. assert (G : exists ls, rmap (mat_level L) s = Ok ls /\ List.length ls = List.length s).
  { clear Hs. induction Hp as [|n s Hn Hp (ls & E & El)]; [exists []; auto|]. cbn [rmap]. unfold mat_level at 1. destruct (Nat.eqb_spec n 0); [lia|].
    destruct (Nat.leb (L - 1) n); cbn [rbind]; rewrite E; cbn [rbind]; eexists; (split; [reflexivity|cbn [List.length]; lia]). }
  destruct G as (ls & E & El). unfold mat_level_n. rewrite E. cbn [rbind]. destruct ls; [destruct s; [congruence|discriminate]|]. eauto.
Qed.

Section MN.
Context {K : CRing}.
Add Ring Kring : (cr_th K).
Open Scope K_scope.
Implicit Types (t u x : tensor K).

(** ** square matrices along a list of axes *)
Definition sq (A : nat -> nat -> nat -> K) (a : nat) t : tensor K := mat_axis (A (nth a (shp t) 0%nat)) (nth a (shp t) 0%nat) a t.
Definition sqs (A : nat -> nat -> nat -> K) (axs : list nat) t : tensor K := fold_left (fun u a => sq A a u) axs t.
Lemma shp_sq A a t : shp (sq A a t) = shp t.
Proof. unfold sq. rewrite shp_mat_axis. apply updn_same. Qed.
Lemma shp_sqs A axs : forall t, shp (sqs A axs t) = shp t.
Proof. induction axs as [|a axs IH]; intros t; [reflexivity|]. unfold sqs. cbn [fold_left]. fold (sqs A axs (sq A a t)). rewrite IH. apply shp_sq. Qed.
Lemma wf_sqs A axs : forall t, wf t -> wf (sqs A axs t).
Proof. induction axs as [|a axs IH]; intros t Ht; [exact Ht|]. apply IH, wf_mat_axis. Qed.
Lemma ttag_sqs A axs : forall t, ttag (sqs A axs t) = ttag t.
Proof. induction axs as [|a axs IH]; intros t; [reflexivity|]. unfold sqs. cbn [fold_left]. fold (sqs A axs (sq A a t)). rewrite IH. reflexivity. Qed.
Lemma sq_comm A B a b t : a <> b -> (a < rank t)%nat -> (b < rank t)%nat -> sq A a (sq B b t) = sq B b (sq A a t).
Proof.
  intros Hab Ha Hb. unfold sq at 1 3. rewrite !shp_sq. unfold sq. apply mat_axis_comm; assumption.
Qed.
Lemma rank_sq A a t : rank (sq A a t) = rank t. Proof. unfold rank. rewrite shp_sq. reflexivity. Qed.
Lemma sq_sqs A B a axs : forall t, ~ In a axs -> (a < rank t)%nat -> Forall (fun b => (b < rank t)%nat) axs -> sq A a (sqs B axs t) = sqs B axs (sq A a t).
Proof.
  induction axs as [|b axs IH]; intros t Hn Ha Hb; [reflexivity|]. inversion Hb as [|? ? Hb1 Hb2]; subst. unfold sqs. cbn [fold_left]. fold (sqs B axs (sq B b t)) (sqs B axs (sq B b (sq A a t))).
  rewrite IH; [rewrite sq_comm; auto; intros ->; apply Hn; left; reflexivity|intros H; apply Hn; right; exact H|rewrite rank_sq; exact Ha|].
  eapply Forall_impl; [|exact Hb2]. intros c Hc. rewrite rank_sq. exact Hc.
Qed.
(** undone by left inverses, in the same order *)
Lemma sqs_inverse A B axs : NoDup axs -> forall t, wf t -> Forall (fun a => (a < rank t)%nat) axs ->
  Forall (fun a => let n := nth a (shp t) 0%nat in forall i k, (i < n)%nat -> (k < n)%nat -> sumf n (fun j => B n i j * A n j k) = delta i k) axs ->
  sqs B axs (sqs A axs t) = t.
Proof.
  induction 1 as [|a axs Hn Hnd IH]; intros t Hw Hr Hi; [reflexivity|]. inversion Hr as [|? ? Hr1 Hr2]; subst. inversion Hi as [|? ? Hi1 Hi2]; subst.
  unfold sqs at 1 2. cbn [fold_left]. fold (sqs A axs (sq A a t)). fold (sqs B axs (sq B a (sqs A axs (sq A a t)))).
  assert (Hr2' : Forall (fun b => (b < rank (sq A a t))%nat) axs) by (eapply Forall_impl; [|exact Hr2]; intros c Hc; rewrite rank_sq; exact Hc).
  rewrite (sq_sqs B A a axs (sq A a t) Hn) by (rewrite ?rank_sq; assumption).
  assert (E : sq B a (sq A a t) = t). { unfold sq at 1. rewrite shp_sq. unfold sq. apply (mat_axis_id _ _ (nth a (shp t) 0%nat)); auto. }
  rewrite E. apply IH; assumption.
Qed.

(** ** the evenly extended tensor, transformed *)
Definition axesN (N : nat) : list nat := rev (seq 1 N).
Definition fullN (A : nat -> nat -> nat -> K) (m : mode) (N : nat) t : tensor K := sqs A (axesN N) (E m t).
Lemma shp_fullN A m N t b s : shp t = b :: s -> shp (fullN A m N t) = b :: map even_up s.
Proof. intros Hs. unfold fullN. rewrite shp_sqs. apply shp_E, Hs. Qed.
Lemma axesN_nodup N : NoDup (axesN N).
Proof. apply NoDup_rev, seq_NoDup. Qed.
Lemma axesN_lt N a : In a (axesN N) -> (1 <= a < S N)%nat.
Proof. unfold axesN. rewrite <- in_rev, in_seq. lia. Qed.
(** synthesis of the transformed tensor *)
Lemma fullN_inverse A B m N t b s : shp t = b :: s -> List.length s = N ->
  Forall (fun n => forall i k, (i < n)%nat -> (k < n)%nat -> sumf n (fun j => B n i j * A n j k) = delta i k) (map even_up s) ->
  sqs B (axesN N) (fullN A m N t) = E m t.
Proof.
  intros Hs Hl Hi. pose proof (shp_E m t b s Hs) as HsE. unfold fullN. apply sqs_inverse; [apply axesN_nodup|apply wf_E| |].
  - apply Forall_forall. intros a Ha. apply axesN_lt in Ha. unfold rank. rewrite HsE. cbn [List.length]. rewrite map_length. lia.
  - apply Forall_forall. intros a Ha. apply axesN_lt in Ha. rewrite HsE. destruct a as [|a]; [lia|]. cbn [nth]. rewrite Forall_forall in Hi. cbv zeta. apply Hi. apply nth_In. rewrite map_length. lia.
Qed.

(** the entries: a sum over the Kronecker product *)
Lemma sq_get A a t idx : valid idx (shp t) -> get (sq A a t) idx = sumf (nth a (shp t) 0%nat) (fun j => A (nth a (shp t) 0%nat) (nth a idx 0%nat) j * get t (updn a j idx)).
Proof. intros Hv. unfold sq. apply get_mat_axis. rewrite updn_same. exact Hv. Qed.
Lemma full2_get A t b n1 n2 q i1 i2 : shp t = [b; n1; n2] -> (q < b)%nat -> (i1 < n1)%nat -> (i2 < n2)%nat ->
  get (sqs A (axesN 2) t) [q; i1; i2] = sumI [n1; n2] (fun js => tprod A [n1; n2] [i1; i2] js * get t (q :: js)).
Proof.
  intros Hs Hq H1 H2. change (sqs A (axesN 2) t) with (sq A 1 (sq A 2 t)).
  rewrite sq_get by (rewrite shp_sq, Hs; repeat constructor; assumption). rewrite shp_sq, Hs. cbn [nth sumI updn]. apply sumf_ext. intros j1 Hj1.
  rewrite sq_get by (rewrite Hs; repeat constructor; assumption). rewrite Hs. cbn [nth updn]. rewrite <- sumf_mul_l. apply sumf_ext. intros j2 Hj2. cbn [tprod]. ring.
Qed.
Lemma full3_get A t b n1 n2 n3 q i1 i2 i3 : shp t = [b; n1; n2; n3] -> (q < b)%nat -> (i1 < n1)%nat -> (i2 < n2)%nat -> (i3 < n3)%nat ->
  get (sqs A (axesN 3) t) [q; i1; i2; i3] = sumI [n1; n2; n3] (fun js => tprod A [n1; n2; n3] [i1; i2; i3] js * get t (q :: js)).
Proof.
  intros Hs Hq H1 H2 H3. change (sqs A (axesN 3) t) with (sq A 1 (sq A 2 (sq A 3 t))).
  rewrite sq_get by (rewrite !shp_sq, Hs; repeat constructor; assumption). rewrite !shp_sq, Hs. cbn [nth sumI updn]. apply sumf_ext. intros j1 Hj1.
  rewrite sq_get by (rewrite !shp_sq, Hs; repeat constructor; assumption). rewrite !shp_sq, Hs. cbn [nth updn]. rewrite <- sumf_mul_l. apply sumf_ext. intros j2 Hj2.
  rewrite sq_get by (rewrite Hs; repeat constructor; assumption). rewrite Hs. cbn [nth updn]. rewrite <- !sumf_mul_l. apply sumf_ext. intros j3 Hj3. cbn [tprod]. ring.
Qed.

(** ** bands *)
Definition bandc (M : list nat -> list nat -> list nat -> K) (m : mode) (k : list bool) t : tensor K := core (map (fun n => even_up n / 2)%nat) (bwn_op M m k) t.
Definition off (d : bool) (h : nat) : nat := if d then h else 0%nat.
Definition blk t (a : nat) (d : bool) : tensor K := narrow t a (off d (nth a (shp t) 0%nat / 2)) (nth a (shp t) 0%nat / 2).
Lemma shp_bandc A m k t b s : shp t = b :: s -> shp (bandc A m k t) = b :: map (fun n => even_up n / 2)%nat s.
Proof. intros Hs. unfold bandc. rewrite shp_core, Hs. reflexivity. Qed.
Lemma off_row d c i h : (h = c / 2)%nat -> (i + off d h)%nat = (if d then (c / 2 + i)%nat else i).
Proof. intros ->. destruct d; cbn [off]; lia. Qed.
Lemma off_lt d c i : (c mod 2 = 0)%nat -> (i < c / 2)%nat -> (i + off d (c / 2) < c)%nat.
Proof. destruct d; cbn [off]; lia. Qed.
Lemma valid3_inv idx a b c : valid idx [a; b; c] -> exists i j k, idx = [i; j; k] /\ (i < a)%nat /\ (j < b)%nat /\ (k < c)%nat.
Proof.
  intros H. destruct idx as [|i idx]; [inversion H|]. apply valid_cons_inv in H as [Hi H]. destruct (valid2_inv _ _ _ H) as (j & k & -> & Hj & Hk). exists i, j, k. auto.
Qed.
Lemma valid4_inv idx a b c d : valid idx [a; b; c; d] -> exists i j k l, idx = [i; j; k; l] /\ (i < a)%nat /\ (j < b)%nat /\ (k < c)%nat /\ (l < d)%nat.
Proof.
  intros H. destruct idx as [|i idx]; [inversion H|]. apply valid_cons_inv in H as [Hi H]. destruct (valid3_inv _ _ _ _ H) as (j & k & l & -> & Hj & Hk & Hl). exists i, j, k, l. auto.
Qed.
Lemma ttag_fullN A m N t : ttag (fullN A m N t) = ttag t.
Proof. unfold fullN. rewrite ttag_sqs. reflexivity. Qed.
Lemma get_E m t b s q js : shp t = b :: s -> (q < b)%nat -> valid js (map even_up s) -> get (E m t) (q :: js) = ext_get m s (fun is => get t (q :: is)) (map Z.of_nat js).
Proof. intros Hs Hq Hj. unfold E. rewrite get_core; rewrite Hs; cbn [hd tl]; auto. Qed.
Lemma band2 A m t b n1 n2 d1 d2 : shp t = [b; n1; n2] ->
  blk (blk (fullN A m 2 t) 1 d1) 2 d2 = bandc (tprod A) m [d1; d2] t.
Proof.
  intros Hs. pose proof (shp_fullN A m 2 t b _ Hs) as HF. cbn [map] in HF. pose proof (even_up_even n1) as E1. pose proof (even_up_even n2) as E2.
  assert (S1 : shp (blk (fullN A m 2 t) 1 d1) = [b; (even_up n1 / 2)%nat; even_up n2]) by (unfold blk; rewrite shp_narrow, HF; reflexivity).
  assert (S2 : shp (blk (blk (fullN A m 2 t) 1 d1) 2 d2) = [b; (even_up n1 / 2)%nat; (even_up n2 / 2)%nat]) by (unfold blk at 1; rewrite shp_narrow, S1; reflexivity).
  apply t_ext; [apply wf_make|apply wf_core|exact (ttag_fullN A m 2 t)|rewrite S2, (shp_bandc (tprod A) m _ t b _ Hs); reflexivity|].
  intros idx Hv. rewrite S2 in Hv. destruct (valid3_inv _ _ _ _ Hv) as (q & i1 & i2 & -> & Hq & H1 & H2).
  unfold bandc. rewrite get_core; [|rewrite Hs; exact Hq|rewrite Hs; cbn [tl map]; repeat constructor; assumption]. rewrite Hs. cbn [tl].
  unfold blk at 1. rewrite get_narrow by (fold (blk (fullN A m 2 t) 1 d1); rewrite S1; cbn [nth updn]; repeat (apply Forall2_cons; [assumption|]); apply Forall2_nil). rewrite S1. cbn [nth updn].
  pose proof (off_lt d1 _ _ E1 H1) as O1. pose proof (off_lt d2 _ _ E2 H2) as O2.
  unfold blk. rewrite get_narrow by (rewrite HF; cbn [nth updn]; repeat (apply Forall2_cons; [assumption|]); apply Forall2_nil). rewrite HF. cbn [nth updn].
  unfold fullN. rewrite (full2_get A (E m t) b (even_up n1) (even_up n2)); auto; [|apply (shp_E m t b _ Hs)].
  unfold bwn_op. cbn [map band_rows]. apply sumI_ext. intros js Hj. rewrite !(off_row _ _ _ _ eq_refl). f_equal. apply (get_E m t b [n1; n2]); auto.
Qed.
Lemma band3 A m t b n1 n2 n3 d1 d2 d3 : shp t = [b; n1; n2; n3] ->
  blk (blk (blk (fullN A m 3 t) 3 d3) 2 d2) 1 d1 = bandc (tprod A) m [d1; d2; d3] t.
Proof.
  intros Hs. pose proof (shp_fullN A m 3 t b _ Hs) as HF. cbn [map] in HF. pose proof (even_up_even n1) as E1. pose proof (even_up_even n2) as E2. pose proof (even_up_even n3) as E3.
  assert (S1 : shp (blk (fullN A m 3 t) 3 d3) = [b; even_up n1; even_up n2; (even_up n3 / 2)%nat]) by (unfold blk; rewrite shp_narrow, HF; reflexivity).
  assert (S2 : shp (blk (blk (fullN A m 3 t) 3 d3) 2 d2) = [b; even_up n1; (even_up n2 / 2)%nat; (even_up n3 / 2)%nat]) by (unfold blk at 1; rewrite shp_narrow, S1; reflexivity).
  assert (S3 : shp (blk (blk (blk (fullN A m 3 t) 3 d3) 2 d2) 1 d1) = [b; (even_up n1 / 2)%nat; (even_up n2 / 2)%nat; (even_up n3 / 2)%nat]) by (unfold blk at 1; rewrite shp_narrow, S2; reflexivity).
  apply t_ext; [apply wf_make|apply wf_core|exact (ttag_fullN A m 3 t)|rewrite S3, (shp_bandc (tprod A) m _ t b _ Hs); reflexivity|].
  intros idx Hv. rewrite S3 in Hv. destruct (valid4_inv _ _ _ _ _ Hv) as (q & i1 & i2 & i3 & -> & Hq & H1 & H2 & H3).
  unfold bandc. rewrite get_core; [|rewrite Hs; exact Hq|rewrite Hs; cbn [tl map]; repeat constructor; assumption]. rewrite Hs. cbn [tl].
  pose proof (off_lt d1 _ _ E1 H1) as O1. pose proof (off_lt d2 _ _ E2 H2) as O2. pose proof (off_lt d3 _ _ E3 H3) as O3.
  unfold blk at 1. rewrite get_narrow by (fold (blk (blk (fullN A m 3 t) 3 d3) 2 d2); rewrite S2; cbn [nth updn]; repeat (apply Forall2_cons; [assumption|]); apply Forall2_nil). rewrite S2. cbn [nth updn].
  unfold blk at 1. rewrite get_narrow by (fold (blk (fullN A m 3 t) 3 d3); rewrite S1; cbn [nth updn]; repeat (apply Forall2_cons; [assumption|]); apply Forall2_nil). rewrite S1. cbn [nth updn].
  unfold blk. rewrite get_narrow by (rewrite HF; cbn [nth updn]; repeat (apply Forall2_cons; [assumption|]); apply Forall2_nil). rewrite HF. cbn [nth updn].
  unfold fullN. rewrite (full3_get A (E m t) b (even_up n1) (even_up n2) (even_up n3)); auto; [|apply (shp_E m t b _ Hs)].
  unfold bwn_op. cbn [map band_rows]. apply sumI_ext. intros js Hj. rewrite !(off_row _ _ _ _ eq_refl). f_equal. apply (get_E m t b [n1; n2; n3]); auto.
Qed.
(** two halves put together *)
Lemma blk_cat t a : wf t -> (a < rank t)%nat -> (nth a (shp t) 0%nat mod 2 = 0)%nat -> cat a [blk t a false; blk t a true] = Ok t.
Proof. intros Hw Ha He. unfold blk. cbn [off]. apply cat_split; auto. lia. Qed.
Lemma blk_split t a h : (nth a (shp t) 0%nat mod 2 = 0)%nat -> (0 < nth a (shp t) 0%nat)%nat -> h = (nth a (shp t) 0%nat / 2)%nat -> split2 t a h = Ok (blk t a false, blk t a true).
Proof.
  intros He Hp ->. unfold split2. destruct (Nat.eqb_spec (nth a (shp t) 0%nat / 2) 0); [lia|]. destruct (Nat.ltb_spec (nth a (shp t) 0%nat / 2) (nth a (shp t) 0%nat)); [|lia].
  destruct (Nat.leb_spec (nth a (shp t) 0%nat) (2 * (nth a (shp t) 0%nat / 2))); [|lia]. cbn [andb]. unfold blk. cbn [off]. do 3 f_equal. lia.
Qed.
End MN.
