(** Base: commutative rings, finite sums, exceptions as values.
    Everything numeric in ptwt is modelled over an arbitrary commutative ring
    (exact arithmetic); IEEE rounding is not modelled. *)
From Coq Require Import List Arith ZArith Lia Ring Bool.
Import ListNotations.

(** A commutative ring with Leibniz equality.  Instances: Z, Qc, R. *)
Record CRing := mkCRing {
  car :> Type;
  kzero : car; kone : car;
  kadd : car -> car -> car; kmul : car -> car -> car;
  ksub : car -> car -> car; kopp : car -> car;
  cr_th : ring_theory kzero kone kadd kmul ksub kopp (@eq car)
}.
Arguments kzero {_}. Arguments kone {_}.
Arguments kadd {_}. Arguments kmul {_}. Arguments ksub {_}. Arguments kopp {_}.

Declare Scope K_scope.
Delimit Scope K_scope with K.
Notation "0" := kzero : K_scope.
Notation "1" := kone : K_scope.
Notation "x + y" := (kadd x y) : K_scope.
Notation "x * y" := (kmul x y) : K_scope.
Notation "x - y" := (ksub x y) : K_scope.
Notation "- x" := (kopp x) : K_scope.

(** Python exceptions that the modelled code (or torch/pywt below it) can raise. *)
Inductive exn :=
| ValueError | TypeError | KeyError | IndexError | AssertionError
| NotImplementedError | RuntimeError | RecursionError | UnboundLocalError | AttributeError | OverflowError.

Inductive result (A : Type) := Ok (a : A) | Raise (e : exn).
Arguments Ok {A}. Arguments Raise {A}.

Definition rbind {A B} (r : result A) (f : A -> result B) : result B :=
  match r with Ok a => f a | Raise e => Raise e end.
Notation "'let*' x ':=' e 'in' f" := (rbind e (fun x => f))
  (at level 200, x pattern, e at level 200, f at level 200).

(** Sequential map that stops at the first exception (a Python comprehension). *)
Fixpoint rmap {A B} (f : A -> result B) (l : list A) : result (list B) :=
  match l with
  | [] => Ok []
  | a :: l' => let* b := f a in let* bs := rmap f l' in Ok (b :: bs)
  end.

Definition is_ok {A} (r : result A) : bool := match r with Ok _ => true | Raise _ => false end.

(** Finite sums: [sumf n f] is f 0 + ... + f (n-1). *)
Fixpoint sumf {K : CRing} (n : nat) (f : nat -> K) : K :=
  match n with O => kzero | S m => kadd (sumf m f) (f m) end.

(** [sumI shape f]: sum of f over all multi-indices of a shape. *)
Fixpoint sumI {K : CRing} (s : list nat) (f : list nat -> K) : K :=
  match s with
  | [] => f []
  | d :: ds => sumf d (fun i => sumI ds (fun is => f (i :: is)))
  end.

(** Sum over the elements of a list. *)
Fixpoint sumL {K : CRing} {A} (l : list A) (f : A -> K) : K :=
  match l with [] => kzero | a :: l' => kadd (f a) (sumL l' f) end.

(** Zero-extended access to a finite sequence with an integer index. *)
Definition zget {K : CRing} (l : list K) (z : Z) : K :=
  if (z <? 0)%Z then kzero else nth (Z.to_nat z) l kzero.

(** 2 is not a zero divisor (true in Z, Q, R). *)
Definition cancel2 (K : CRing) : Prop :=
  forall a b : K, kadd a a = kadd b b -> a = b.

(** The ring of integers, used for executable examples. *)
Definition ZK : CRing := mkCRing Z 0%Z 1%Z Z.add Z.mul Z.sub Z.opp Zth.
