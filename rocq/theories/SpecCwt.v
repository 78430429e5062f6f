(** Specification of the continuous wavelet transform (C46, C47), independent of Cwt.v's algorithm. *)
From Coq Require Import List Arith ZArith QArith Qround Lia Bool.
From Verif Require Import Base Sums Tensor.
Import ListNotations.

Section SpecCwt.
Context {K : CRing}.
Local Open Scope nat_scope.
(** linear (not circular) convolution of f_0 .. f_(n-1) with g_0 .. g_(m-1) at position k *)
Definition lin_conv (n m : nat) (f g : nat -> K) (k : nat) : K :=
  sumf n (fun i => if (i <=? k) && (k - i <? m) then (f i * g (k - i)%nat)%K else kzero).
(** M samples are taken of a wavelet given by P values on a grid with the given step and total width:
    those k with k <= scale * width whose grid position k / (scale * step) lies on the grid *)
Definition n_samples (P : nat) (width step scale : Q) (M : nat) : Prop :=
  forall k, k < M <-> ((inject_Z (Z.of_nat k) < scale * width + 1)%Q /\ (inject_Z (Z.of_nat k) < inject_Z (Z.of_nat P) * (scale * step))%Q).
Definition grid_index (step scale : Q) (k : nat) : nat := Z.to_nat (Qfloor (inject_Z (Z.of_nat k) / (scale * step))).
(** value at time t: minus [root] (the square root of the scale) times the difference of two consecutive values of the
    convolution of the signal f_0 .. f_(n-1) with the time-reversed samples of the integrated wavelet [ipsi] *)
Definition cwt_value (root : K) (ipsi : nat -> K) (step scale : Q) (M n : nat) (f : nat -> K) (t : nat) : K :=
  let y := lin_conv n M f (fun r => ipsi (grid_index step scale (M - 1 - r))) in
  (- root * (y (t + (M - 2) / 2 + 1)%nat - y (t + (M - 2) / 2)%nat))%K.
(** the integrated wavelet: cumulative sums times the step *)
Definition cumulative (psi : list K) (step : K) (k : nat) : K := (sumf (S k) (fun j => nth j psi kzero) * step)%K.
(** an increasing grid whose first two points are [step] apart and whose ends are [width] apart *)
Definition increasing_grid (x : list Q) (step width : Q) : Prop :=
  2 <= List.length x /\ step = (nth 1 x 0 - nth 0 x 0)%Q /\ width = (last x 0 - nth 0 x 0)%Q /\ (0 < step)%Q /\ (0 < width)%Q.
End SpecCwt.
