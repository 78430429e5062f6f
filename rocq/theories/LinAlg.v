(** Linear algebra over a domain: more unknowns than equations have a solution, one-sided inverses of square
    matrices are two-sided, spans and independent families. *)
From Coq Require Import List Arith ZArith Lia Bool Ring.
From Verif Require Import Base Sums Tensor TensorFacts SpecMat.
Import ListNotations.

Section LA.
Context {K : CRing}.
Add Ring Kring : (cr_th K).
Open Scope K_scope.
Implicit Types (M A B R : nat -> nat -> K) (v c u x y : nat -> K).

Definition skip (p j : nat) : nat := if Nat.ltb j p then j else S j.
Definition unskip (p j : nat) : nat := if Nat.ltb j p then j else Nat.pred j.
Lemma skip_ne p j : skip p j <> p.
Proof. unfold skip. destruct (Nat.ltb_spec j p); lia. Qed.
Lemma unskip_skip p j : unskip p (skip p j) = j.
Proof. unfold unskip, skip. destruct (Nat.ltb_spec j p). - destruct (Nat.ltb_spec j p); [reflexivity|lia]. - destruct (Nat.ltb_spec (S j) p); [lia|reflexivity]. Qed.
Lemma skip_lt p j n : (j < n)%nat -> (skip p j < S n)%nat.
Proof. unfold skip. destruct (Nat.ltb_spec j p); lia. Qed.
Lemma skip_unskip p j : j <> p -> skip p (unskip p j) = j.
Proof. unfold unskip, skip. intros H. destruct (Nat.ltb_spec j p). - destruct (Nat.ltb_spec j p); [reflexivity|lia]. - destruct (Nat.ltb_spec (Nat.pred j) p); lia. Qed.
Lemma sumf_skip n p (f : nat -> K) : (p <= n)%nat -> sumf (S n) f = f p + sumf n (fun j => f (skip p j)).
Proof.
  revert p. induction n as [|n IH]; intros p Hp; [assert (p = 0)%nat by lia; subst; cbn; ring|].
  destruct (Nat.eq_dec p (S n)) as [->|Hne].
  - cbn [sumf]. rewrite (sumf_ext n (fun j => f (skip (S n) j)) f). 2:{ intros j Hj. unfold skip. destruct (Nat.ltb_spec j (S n)); [reflexivity|lia]. }
    unfold skip. destruct (Nat.ltb_spec n (S n)); [ring|lia].
  - change (sumf (S (S n)) f) with (sumf (S n) f + f (S n)). rewrite (IH p) by lia. change (sumf (S n) (fun j => f (skip p j))) with (sumf n (fun j => f (skip p j)) + f (skip p n)).
    assert (E : skip p n = S n) by (unfold skip; destruct (Nat.ltb_spec n p); lia). rewrite E. ring.
Qed.

Hypothesis HD : domain K.
Let HD0 : forall a b : K, a * b = 0 -> a = 0 \/ b = 0 := proj1 HD.
Let HD1 : (1 : K) <> 0 := proj1 (proj2 HD).
Let HDd : forall a : K, a = 0 \/ a <> 0 := proj2 (proj2 HD).

Lemma mul_cancel (a b c : K) : c <> 0 -> a * c = b * c -> a = b.
Proof.
  intros Hc H. assert (E : (a - b) * c = 0) by (replace ((a - b) * c) with (a * c - b * c) by ring; rewrite H; ring).
  apply HD0 in E as [E|E]; [|contradiction]. replace a with (a - b + b) by ring. rewrite E. ring.
Qed.
Lemma all_zero_dec n v : (forall j, (j < n)%nat -> v j = 0) \/ exists j, (j < n)%nat /\ v j <> 0.
Proof.
  induction n as [|n IH]; [left; intros; lia|]. destruct IH as [IH|(j & Hj & H)]; [|right; exists j; split; [lia|exact H]].
  destruct (HDd (v n)) as [E|E]; [left; intros j Hj; destruct (Nat.eq_dec j n) as [->|]; [exact E|apply IH; lia]|right; exists n; split; [lia|exact E]].
Qed.

(** fewer equations than unknowns: there is a non-trivial solution *)
Lemma dependent_columns m n M : (m < n)%nat -> exists c, (exists j, (j < n)%nat /\ c j <> 0) /\ forall i, (i < m)%nat -> sumf n (fun j => M i j * c j) = 0.
Proof.
  revert n M. induction m as [|m IH]; intros n M Hmn.
  - exists (fun _ => 1). split; [exists 0%nat; split; [lia|exact HD1]|intros; lia].
  - destruct (all_zero_dec n (M m)) as [Hz|(p & Hp & Hnz)].
    + destruct (IH n M) as (c & Hc & H); [lia|]. exists c. split; [exact Hc|]. intros i Hi. destruct (Nat.eq_dec i m) as [->|]; [|apply H; lia].
      apply sumf_zero. intros j Hj. rewrite Hz by exact Hj. ring.
    + destruct n as [|n]; [lia|].
      destruct (IH n (fun i j => M m p * M i (skip p j) - M i p * M m (skip p j))) as (c' & (j0 & Hj0 & Hc0) & H); [lia|].
      exists (fun j => if Nat.eqb j p then - sumf n (fun j' => M m (skip p j') * c' j') else M m p * c' (unskip p j)).
      assert (Hsum : forall i, sumf (S n) (fun j => M i j * (if Nat.eqb j p then - sumf n (fun j' => M m (skip p j') * c' j') else M m p * c' (unskip p j))) =
                     sumf n (fun j => (M m p * M i (skip p j) - M i p * M m (skip p j)) * c' j)).
      { intros i. rewrite (sumf_skip n p) by lia. rewrite Nat.eqb_refl.
        transitivity (sumf n (fun j => (M i p * (- (M m (skip p j) * c' j))) + M i (skip p j) * (M m p * c' j))).
        - rewrite sumf_add. f_equal.
          + rewrite sumf_mul_l. f_equal. rewrite (sumf_ext n (fun i0 => - (M m (skip p i0) * c' i0)) (fun i0 => - (1) * (M m (skip p i0) * c' i0))) by (intros; ring). rewrite sumf_mul_l. ring.
          + apply sumf_ext. intros j Hj. destruct (Nat.eqb_spec (skip p j) p) as [E|_]; [destruct (skip_ne p j E)|]. rewrite unskip_skip. reflexivity.
        - apply sumf_ext. intros j _. ring. }
      split.
      * exists (skip p j0). split; [apply skip_lt; exact Hj0|]. destruct (Nat.eqb_spec (skip p j0) p) as [E|_]; [destruct (skip_ne p j0 E)|]. rewrite unskip_skip.
        intros E. apply HD0 in E as [E|E]; contradiction.
      * intros i Hi. rewrite Hsum. destruct (Nat.eq_dec i m) as [->|]; [apply sumf_zero; intros j _; ring|]. apply H. lia.
Qed.

(** a right inverse of a square matrix is a left inverse *)
Lemma sum_delta n i v : (i < n)%nat -> sumf n (fun j => delta i j * v j) = v i.
Proof.
  intros Hi. rewrite (sumf_single n i); [unfold delta; rewrite Nat.eqb_refl; ring|exact Hi|]. intros k _ Hk. unfold delta. destruct (Nat.eqb_spec i k); [congruence|ring].
Qed.
Lemma sum_assoc n m M c v : sumf n (fun i => v i * sumf m (fun j => M i j * c j)) = sumf m (fun j => sumf n (fun i => v i * M i j) * c j).
Proof.
  transitivity (sumf n (fun i => sumf m (fun j => v i * M i j * c j))).
  - apply sumf_ext. intros i _. rewrite <- sumf_mul_l. apply sumf_ext. intros j _. ring.
  - rewrite sumf_swap. apply sumf_ext. intros j _. rewrite sumf_mul_r. reflexivity.
Qed.
Lemma right_inverse_left n A B : (forall i j, (i < n)%nat -> (j < n)%nat -> sumf n (fun k => A i k * B k j) = delta i j) ->
  forall i j, (i < n)%nat -> (j < n)%nat -> sumf n (fun k => B i k * A k j) = delta i j.
Proof.
  intros HAB.
  assert (Hker : forall x, (forall i, (i < n)%nat -> sumf n (fun j => A i j * x j) = 0) -> forall i, (i < n)%nat -> x i = 0).
  { intros x Hx. destruct (dependent_columns n (S n) (fun i j => if Nat.ltb j n then B i j else x i)) as (c & (j0 & Hj0 & Hc0) & H); [lia|].
    assert (H' : forall i, (i < n)%nat -> sumf n (fun j => B i j * c j) + x i * c n = 0).
    { intros i Hi. specialize (H i Hi). cbn [sumf] in H. destruct (Nat.ltb_spec n n); [lia|]. rewrite (sumf_ext n _ (fun j => B i j * c j)) in H; [exact H|].
      intros j Hj. destruct (Nat.ltb_spec j n); [reflexivity|lia]. }
    assert (Hc : forall k, (k < n)%nat -> c k = 0).
    { intros k Hk. transitivity (sumf n (fun i => A k i * (sumf n (fun j => B i j * c j) + x i * c n))).
      - rewrite (sumf_ext n _ (fun i => A k i * sumf n (fun j => B i j * c j) + A k i * x i * c n)) by (intros; ring). rewrite sumf_add, sum_assoc, sumf_mul_r, Hx by exact Hk.
        rewrite (sumf_ext n _ (fun j => delta k j * c j)). 2:{ intros j Hj. rewrite HAB by assumption. reflexivity. } rewrite sum_delta by exact Hk. ring.
      - apply sumf_zero. intros i Hi. rewrite H' by exact Hi. ring. }
    assert (Hcn : c n <> 0) by (destruct (Nat.eq_dec j0 n) as [<-|]; [exact Hc0|exfalso; apply Hc0, Hc; lia]).
    intros i Hi. specialize (H' i Hi). rewrite sumf_zero in H' by (intros j Hj; rewrite Hc by exact Hj; ring).
    assert (E : x i * c n = 0) by (rewrite <- H'; ring). apply HD0 in E as [E|E]; [exact E|contradiction]. }
  intros i j Hi Hj.
  assert (E : sumf n (fun k => B i k * A k j) - delta i j = 0).
  { revert i Hi. apply Hker. intros i Hi.
    rewrite (sumf_ext n _ (fun i0 => A i i0 * sumf n (fun k => B i0 k * A k j) - A i i0 * delta i0 j)) by (intros; ring).
    rewrite sumf_sub, sum_assoc. rewrite (sumf_ext n _ (fun k => delta i k * A k j)). 2:{ intros k Hk. rewrite HAB by assumption. reflexivity. }
    rewrite sum_delta by exact Hi. rewrite (sumf_single n j); [unfold delta; rewrite Nat.eqb_refl; ring|exact Hj|]. intros k _ Hk. unfold delta. destruct (Nat.eqb_spec k j); [congruence|ring]. }
  replace (sumf n (fun k => B i k * A k j)) with (sumf n (fun k => B i k * A k j) - delta i j + delta i j) by ring. rewrite E. ring.
Qed.
Theorem orthonormal_rows_orthogonal n M : orthonormal_rows n n M -> orthogonal n M.
Proof.
  intros H. split; [exact H|]. intros i j Hi Hj. unfold dot. exact (right_inverse_left n M (fun k i => M i k) H i j Hi Hj).
Qed.
(** a square matrix without right kernel has no left kernel *)
Lemma left_kernel n R : (forall y, (forall i, (i < n)%nat -> sumf n (fun j => R i j * y j) = 0) -> forall j, (j < n)%nat -> y j = 0) ->
  forall v, (forall j, (j < n)%nat -> sumf n (fun i => v i * R i j) = 0) -> forall i, (i < n)%nat -> v i = 0.
Proof.
  intros HR v Hv. destruct (all_zero_dec n v) as [Hz|(p & Hp & Hnz)]; [exact Hz|]. exfalso.
  destruct n as [|n]; [lia|]. destruct (dependent_columns n (S n) (fun i j => R (skip p i) j)) as (y & (j0 & Hj0 & Hy0) & H); [lia|].
  apply Hy0. apply (HR y); [|exact Hj0].
  assert (Ho : forall i, (i < S n)%nat -> i <> p -> sumf (S n) (fun j => R i j * y j) = 0).
  { intros i Hi Hip. specialize (H (unskip p i)). rewrite skip_unskip in H by exact Hip. apply H. unfold unskip. destruct (Nat.ltb_spec i p); lia. }
  intros i Hi. destruct (Nat.eq_dec i p) as [->|Hip]; [|apply Ho; assumption].
  assert (E : v p * sumf (S n) (fun j => R p j * y j) = 0).
  { transitivity (sumf (S n) (fun i => v i * sumf (S n) (fun j => R i j * y j))).
    - symmetry. rewrite (sumf_single (S n) p); [reflexivity|exact Hp|]. intros k Hk Hkp. rewrite Ho by assumption. ring.
    - rewrite sum_assoc. apply sumf_zero. intros j Hj. rewrite Hv by exact Hj. ring. }
  apply HD0 in E as [E|E]; [contradiction|exact E].
Qed.

(** ** sums over lists of indices *)
Lemma sumL_single l k v : NoDup l -> In k l -> (forall i, In i l -> i <> k -> v i = 0) -> sumL l v = v k.
Proof.
  induction l as [|a l IH]; intros Hn Hin Hz; [destruct Hin|]. apply NoDup_cons_iff in Hn as [Hna Hn]. cbn [sumL]. destruct Hin as [->|Hin].
  - rewrite sumL_zero; [ring|]. intros i Hi. apply Hz; [right; exact Hi|]. intros ->. contradiction.
  - rewrite IH; auto; [|intros i Hi; apply Hz; right; exact Hi]. rewrite (Hz a); [ring|left; reflexivity|]. intros ->. contradiction.
Qed.
Lemma dot_sumL n (l : list nat) c M u : dot n (fun j => sumL l (fun i => c i * M i j)) u = sumL l (fun i => c i * dot n (M i) u).
Proof.
  unfold dot. transitivity (sumf n (fun j => sumL l (fun i => c i * (M i j * u j)))).
  - apply sumf_ext. intros j _. induction l as [|a l IH]; cbn [sumL]; [ring|]. rewrite <- IH. ring.
  - rewrite <- sumL_sumf_swap. apply sumL_ext. intros i _. apply sumf_mul_l.
Qed.
Lemma dot_comm n u v : dot n u v = dot n v u.
Proof. unfold dot. apply sumf_ext. intros. ring. Qed.
Lemma dot_ext n u u' v v' : (forall j, (j < n)%nat -> u j = u' j) -> (forall j, (j < n)%nat -> v j = v' j) -> dot n u v = dot n u' v'.
Proof. intros H1 H2. unfold dot. apply sumf_ext. intros j Hj. rewrite H1, H2 by exact Hj. reflexivity. Qed.
Lemma dot_sub n u v x : dot n (fun j => u j - v j) x = dot n u x - dot n v x.
Proof. unfold dot. rewrite <- sumf_sub. apply sumf_ext. intros. ring. Qed.
Lemma dot_scale n a u x : dot n (fun j => a * u j) x = a * dot n u x.
Proof. unfold dot. rewrite <- sumf_mul_l. apply sumf_ext. intros. ring. Qed.
Lemma span_orth n l M v u : in_span n l M v -> (forall i, In i l -> dot n (M i) u = 0) -> dot n v u = 0.
Proof.
  intros [c Hc] H. rewrite (dot_ext n v (fun j => sumL l (fun i => c i * M i j)) u u) by auto. rewrite dot_sumL. apply sumL_zero. intros i Hi. rewrite H by exact Hi. ring.
Qed.
Lemma span_self n l M k : NoDup l -> In k l -> in_span n l M (M k).
Proof.
  intros Hn Hin. exists (delta k). intros j _. rewrite (sumL_single l k); auto; [unfold delta; rewrite Nat.eqb_refl; ring|].
  intros i _ Hi. unfold delta. destruct (Nat.eqb_spec k i); [congruence|ring].
Qed.
Lemma sumL_nested (l l' : list nat) (c : nat -> K) (d : nat -> nat -> K) (x : nat -> K) :
  sumL l (fun i => c i * sumL l' (fun k => d i k * x k)) = sumL l' (fun k => sumL l (fun i => c i * d i k) * x k).
Proof.
  induction l as [|a l IH]; cbn [sumL].
  - symmetry. apply sumL_zero. intros. ring.
  - rewrite IH, <- sumL_mul_l, <- sumL_add. apply sumL_ext. intros. ring.
Qed.
Lemma span_trans n l l' M M' v : in_span n l M v -> (forall i, In i l -> in_span n l' M' (M i)) -> in_span n l' M' v.
Proof.
  intros [c Hc] H.
  assert (Hd : exists d : nat -> nat -> K, forall i, In i l -> forall j, (j < n)%nat -> M i j = sumL l' (fun k => d i k * M' k j)).
  { clear Hc. induction l as [|a l IH]; [exists (fun _ _ => 0); intros i []|]. destruct IH as [d Hd]; [intros i Hi; apply H; right; exact Hi|].
    destruct (H a (or_introl eq_refl)) as [e He]. exists (fun i => if Nat.eqb i a then e else d i). intros i Hi j Hj. destruct (Nat.eqb_spec i a) as [->|Hne]; [apply He, Hj|].
    destruct Hi as [->|Hi]; [congruence|]. apply Hd; assumption. }
  destruct Hd as [d Hd]. exists (fun k => sumL l (fun i => c i * d i k)). intros j Hj. rewrite Hc by exact Hj. rewrite <- (sumL_nested l l' c d (fun k => M' k j)).
  apply sumL_ext. intros i Hi. rewrite (Hd i Hi j Hj). reflexivity.
Qed.
End LA.
