(** Lemmas about finite sums. *)
From Coq Require Import List Arith ZArith Lia Ring Bool.
From Verif Require Import Base.
Import ListNotations.

Section Sums.
Context {K : CRing}.
Add Ring Kring : (cr_th K).
Local Open Scope K_scope.

Lemma sumf_ext n (f g : nat -> K) :
  (forall i, (i < n)%nat -> f i = g i) -> sumf n f = sumf n g.
Proof.
  induction n as [|n IH]; intros H; cbn; [reflexivity|].
  rewrite IH by (intros; apply H; lia). rewrite H by lia. reflexivity.
Qed.

Lemma sumf_zero n (f : nat -> K) : (forall i, (i < n)%nat -> f i = 0) -> sumf n f = 0.
Proof.
  induction n as [|n IH]; intros H; cbn; [reflexivity|].
  rewrite IH by (intros; apply H; lia). rewrite H by lia. ring.
Qed.

Lemma sumf_add n (f g : nat -> K) :
  sumf n (fun i => f i + g i) = sumf n f + sumf n g.
Proof. induction n as [|n IH]; cbn; [ring|]. rewrite IH. ring. Qed.

Lemma sumf_sub n (f g : nat -> K) :
  sumf n (fun i => f i - g i) = sumf n f - sumf n g.
Proof. induction n as [|n IH]; cbn; [ring|]. rewrite IH. ring. Qed.

Lemma sumf_mul_l n c (f : nat -> K) : sumf n (fun i => c * f i) = c * sumf n f.
Proof. induction n as [|n IH]; cbn; [ring|]. rewrite IH. ring. Qed.

Lemma sumf_mul_r n c (f : nat -> K) : sumf n (fun i => f i * c) = sumf n f * c.
Proof. induction n as [|n IH]; cbn; [ring|]. rewrite IH. ring. Qed.

Lemma sumf_swap n m (f : nat -> nat -> K) :
  sumf n (fun i => sumf m (fun j => f i j)) = sumf m (fun j => sumf n (fun i => f i j)).
Proof.
  induction n as [|n IH]; cbn.
  - symmetry. apply sumf_zero. reflexivity.
  - rewrite IH, <- sumf_add. reflexivity.
Qed.

Lemma sumf_single n k (f : nat -> K) :
  (k < n)%nat -> (forall i, (i < n)%nat -> i <> k -> f i = 0) -> sumf n f = f k.
Proof.
  intros Hk H. induction n as [|n IH]; [lia|]. cbn.
  destruct (Nat.eq_dec k n) as [->|Hne].
  - rewrite sumf_zero by (intros; apply H; lia). ring.
  - rewrite IH by (try lia; intros; apply H; lia). rewrite (H n) by lia. ring.
Qed.

Lemma sumf_app n m (f : nat -> K) :
  sumf (n + m) f = sumf n f + sumf m (fun i => f (n + i)%nat).
Proof.
  induction m as [|m IH]; cbn.
  - rewrite Nat.add_0_r. ring.
  - rewrite Nat.add_succ_r. cbn. rewrite IH. ring.
Qed.

Lemma sumf_S_first n (f : nat -> K) : sumf (S n) f = f O + sumf n (fun i => f (S i)).
Proof.
  change (S n) with (1 + n)%nat. rewrite sumf_app. cbn. ring.
Qed.

Lemma sumf_rev n (f : nat -> K) : sumf n f = sumf n (fun i => f (n - 1 - i)%nat).
Proof.
  induction n as [|n IH]; [reflexivity|].
  rewrite (sumf_S_first n (fun i => f (S n - 1 - i)%nat)). cbn [sumf].
  rewrite IH. replace (S n - 1 - 0)%nat with n by lia.
  rewrite (sumf_ext n (fun i => f (S n - 1 - S i)%nat) (fun i => f (n - 1 - i)%nat)).
  - ring.
  - intros i Hi. f_equal. lia.
Qed.

(** Extending the range by zero terms. *)
Lemma sumf_extend n m (f : nat -> K) :
  (n <= m)%nat -> (forall i, (n <= i < m)%nat -> f i = 0) -> sumf m f = sumf n f.
Proof.
  intros Hnm H. replace m with (n + (m - n))%nat by lia. rewrite sumf_app.
  rewrite (sumf_zero (m - n)) by (intros; apply H; lia). ring.
Qed.

(** Reindexing by an injection that covers the support. *)
Lemma sumf_reindex n m (f g : nat -> K) (h : nat -> nat) :
  (forall i, (i < n)%nat -> (h i < m)%nat /\ f i = g (h i)) ->
  (forall i j, i < n -> j < n -> h i = h j -> i = j)%nat ->
  (forall j, (j < m)%nat -> (exists i, i < n /\ h i = j)%nat \/ g j = 0) ->
  sumf n f = sumf m g.
Proof.
  intros H1 Hinj Hcov.
  transitivity (sumf n (fun i => sumf m (fun j => if Nat.eqb (h i) j then g j else 0))).
  - apply sumf_ext. intros i Hi. destruct (H1 i Hi) as [Hh Hf].
    rewrite (sumf_single m (h i)).
    + rewrite Nat.eqb_refl. exact Hf.
    + exact Hh.
    + intros j _ Hj. destruct (Nat.eqb_spec (h i) j); [congruence|reflexivity].
  - rewrite sumf_swap. apply sumf_ext. intros j Hj.
    destruct (Hcov j Hj) as [[i [Hi Hij]]|Hz].
    + rewrite (sumf_single n i).
      * rewrite Hij, Nat.eqb_refl. reflexivity.
      * exact Hi.
      * intros i' Hi' Hne. destruct (Nat.eqb_spec (h i') j) as [He|]; [|reflexivity].
        exfalso. apply Hne. apply Hinj; congruence.
    + rewrite Hz. apply sumf_zero. intros i Hi. destruct (Nat.eqb (h i) j); reflexivity.
Qed.

(** multi-index sums *)
Lemma sumI_ext s (f g : list nat -> K) :
  (forall idx, Forall2 lt idx s -> f idx = g idx) -> sumI s f = sumI s g.
Proof.
  revert f g. induction s as [|d ds IH]; intros f g H; cbn.
  - apply H. constructor.
  - apply sumf_ext. intros i Hi. apply IH. intros idx Hv. apply H. constructor; assumption.
Qed.

Lemma sumI_zero s (f : list nat -> K) :
  (forall idx, Forall2 lt idx s -> f idx = 0) -> sumI s f = 0.
Proof.
  revert f. induction s as [|d ds IH]; intros f H; cbn.
  - apply H. constructor.
  - apply sumf_zero. intros i Hi. apply IH. intros idx Hv. apply H. constructor; assumption.
Qed.

Lemma sumI_add s (f g : list nat -> K) :
  sumI s (fun i => f i + g i) = sumI s f + sumI s g.
Proof.
  revert f g. induction s as [|d ds IH]; intros f g; cbn; [reflexivity|].
  rewrite <- sumf_add. apply sumf_ext. intros. apply IH.
Qed.

Lemma sumI_mul_l s c (f : list nat -> K) : sumI s (fun i => c * f i) = c * sumI s f.
Proof.
  revert f. induction s as [|d ds IH]; intros f; cbn; [reflexivity|].
  rewrite <- sumf_mul_l. apply sumf_ext. intros. apply IH.
Qed.

Lemma sumI_sumf_swap s n (f : list nat -> nat -> K) :
  sumI s (fun idx => sumf n (fun j => f idx j)) = sumf n (fun j => sumI s (fun idx => f idx j)).
Proof.
  revert f. induction s as [|d ds IH]; intros f; cbn; [reflexivity|].
  rewrite sumf_swap. apply sumf_ext. intros i Hi. apply (IH (fun idx j => f (i :: idx) j)).
Qed.

Lemma sumI_swap s t (f : list nat -> list nat -> K) :
  sumI s (fun i => sumI t (fun j => f i j)) = sumI t (fun j => sumI s (fun i => f i j)).
Proof.
  revert s f. induction t as [|d ds IH]; intros s f; cbn; [reflexivity|].
  rewrite sumI_sumf_swap. apply sumf_ext. intros j Hj.
  apply (IH s (fun i js => f i (j :: js))).
Qed.

Lemma sumI_single s k (f : list nat -> K) :
  Forall2 lt k s -> (forall idx, Forall2 lt idx s -> idx <> k -> f idx = 0) -> sumI s f = f k.
Proof.
  intros Hk. revert f. induction Hk as [|k d ks ds Hlt Hv IH]; intros f H; cbn; [reflexivity|].
  rewrite (sumf_single d k).
  - apply (IH (fun is => f (k :: is))). intros idx Hi Hne. apply H; [constructor; assumption|congruence].
  - exact Hlt.
  - intros i Hi Hne. apply sumI_zero. intros idx Hv'. apply H; [constructor; assumption|congruence].
Qed.

(** list sums *)
Lemma sumL_ext {A} (l : list A) (f g : A -> K) :
  (forall a, In a l -> f a = g a) -> sumL l f = sumL l g.
Proof.
  induction l as [|a l IH]; intros H; cbn; [reflexivity|].
  rewrite (H a) by (left; reflexivity). rewrite IH; [reflexivity|].
  intros; apply H; right; assumption.
Qed.

Lemma sumL_app {A} (l l' : list A) (f : A -> K) : sumL (l ++ l') f = sumL l f + sumL l' f.
Proof. induction l as [|a l IH]; cbn; [ring|]. rewrite IH. ring. Qed.

Lemma sumL_map {A B} (l : list A) (h : A -> B) (f : B -> K) :
  sumL (map h l) f = sumL l (fun a => f (h a)).
Proof. induction l as [|a l IH]; cbn; [reflexivity|]. rewrite IH. reflexivity. Qed.

Lemma sumL_mul_l {A} (l : list A) c (f : A -> K) : sumL l (fun a => c * f a) = c * sumL l f.
Proof. induction l as [|a l IH]; cbn; [ring|]. rewrite IH. ring. Qed.

Lemma sumL_add {A} (l : list A) (f g : A -> K) :
  sumL l (fun a => f a + g a) = sumL l f + sumL l g.
Proof. induction l as [|a l IH]; cbn; [ring|]. rewrite IH. ring. Qed.

Lemma sumL_zero {A} (l : list A) (f : A -> K) :
  (forall a, In a l -> f a = 0) -> sumL l f = 0.
Proof.
  induction l as [|a l IH]; intros H; cbn; [reflexivity|].
  rewrite (H a) by (left; reflexivity). rewrite IH; [ring|]. intros; apply H; right; assumption.
Qed.

Lemma sumL_sumf_swap {A} (l : list A) n (f : A -> nat -> K) :
  sumL l (fun a => sumf n (f a)) = sumf n (fun i => sumL l (fun a => f a i)).
Proof.
  induction l as [|a l IH]; cbn.
  - symmetry. apply sumf_zero. reflexivity.
  - rewrite IH, <- sumf_add. reflexivity.
Qed.

Lemma sumL_sumI_swap {A} (l : list A) s (f : A -> list nat -> K) :
  sumL l (fun a => sumI s (f a)) = sumI s (fun i => sumL l (fun a => f a i)).
Proof.
  induction l as [|a l IH]; cbn.
  - symmetry. apply sumI_zero. reflexivity.
  - rewrite IH, <- sumI_add. reflexivity.
Qed.

Lemma sumL_flat_map {A B} (l : list A) (h : A -> list B) (f : B -> K) :
  sumL (flat_map h l) f = sumL l (fun a => sumL (h a) f).
Proof. induction l as [|a l IH]; cbn; [reflexivity|]. rewrite sumL_app, IH. reflexivity. Qed.

Lemma sumL_seq n (f : nat -> K) : sumL (seq 0 n) f = sumf n f.
Proof.
  induction n as [|n IH]; [reflexivity|].
  rewrite seq_S, sumL_app, IH. cbn. ring.
Qed.

Lemma sumf_nth_sumL {A} (l : list A) (d : A) (f : A -> K) :
  sumf (length l) (fun i => f (nth i l d)) = sumL l f.
Proof.
  rewrite <- sumL_seq. rewrite <- (sumL_map (seq 0 (length l)) (fun i => nth i l d) f).
  f_equal. clear f. induction l as [|a l IH]; cbn; [reflexivity|].
  f_equal. rewrite <- seq_shift, map_map. exact IH.
Qed.

(** zero-extended access *)
Lemma zget_nat (l : list K) i : zget l (Z.of_nat i) = nth i l 0.
Proof.
  unfold zget. destruct (Z.ltb_spec (Z.of_nat i) 0) as [H|H]; [lia|].
  rewrite Nat2Z.id. reflexivity.
Qed.

Lemma zget_neg (l : list K) z : (z < 0)%Z -> zget l z = 0.
Proof. intros H. unfold zget. destruct (Z.ltb_spec z 0); [reflexivity|lia]. Qed.

Lemma zget_big (l : list K) z : (Z.of_nat (length l) <= z)%Z -> zget l z = 0.
Proof.
  intros H. unfold zget. destruct (Z.ltb_spec z 0); [reflexivity|].
  apply nth_overflow. lia.
Qed.

Lemma nth_rev_zget (l : list K) j :
  (j < length l)%nat -> nth j (rev l) 0 = zget l (Z.of_nat (length l) - 1 - Z.of_nat j).
Proof.
  intros H. rewrite rev_nth by exact H. rewrite <- zget_nat. f_equal. lia.
Qed.

End Sums.
