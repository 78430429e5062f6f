(** Specification of the stationary (undecimated) transform; independent of the model. *)
From Coq Require Import List Arith ZArith Lia Bool String.
From Verif Require Import Base Tensor Spec.
Import ListNotations.

(** position z on a circle of n samples *)
Definition cyc (n : nat) (z : Z) : nat := Z.to_nat (z mod Z.of_nat n).

Section SSwt.
Context {K : CRing}.
Implicit Types f lo hi : list K.
(** y[k] = sum_i f[i] x[(k + d (c - i)) mod n] *)
Definition circ_conv f (c d : Z) (n : nat) (X : nat -> K) (k : nat) : K :=
  sumf (List.length f) (fun i => kmul (nth i f kzero) (X (cyc n (Z.of_nat k + d * (c - Z.of_nat i))))).
(** ... along axis a of a tensor *)
Definition circ_axis f (c d : Z) (a : nat) (x : tensor K) : tensor K :=
  along_axes (fun s => s) (fun s X ks => circ_conv f c d (hd 0 s) (fun i => X [i]) (hd 0 ks)) [a] x.

(** analysis filter f at level j >= 1 (dilation 2^(j-1)), centred at L/2 *)
Definition swt_level f (j a : nat) (x : tensor K) : tensor K :=
  circ_axis f (Z.of_nat (List.length f / 2)) (2 ^ (Z.of_nat j - 1)) a x.
Fixpoint swt_approx lo (a j : nat) (x : tensor K) : tensor K :=
  match j with O => x | S j' => swt_level lo j a (swt_approx lo a j' x) end.
Definition swt_detail lo hi (a j : nat) (x : tensor K) : tensor K := swt_level hi j a (swt_approx lo a (j - 1) x).
(** [cA_J; cD_J; ...; cD_1] *)
Definition swt_spec lo hi (a J : nat) (x : tensor K) : list (tensor K) :=
  swt_approx lo a J x :: map (fun j => swt_detail lo hi a j x) (rev (seq 1 J)).

(** one synthesis level (dilation d): half the sum of both channels, filtered and centred at L/2 - 1 *)
Definition iswt_level (half : K) (rlo rhi : list K) (d : Z) (a : nat) (lo hi : tensor K) : tensor K :=
  tlin half half (circ_axis rlo (Z.of_nat (List.length rlo / 2) - 1) d a lo) (circ_axis rhi (Z.of_nat (List.length rhi / 2) - 1) d a hi).
(** [cA; cD_J; ...; cD_1] -> signal *)
Fixpoint iswt_spec (half : K) (rlo rhi : list K) (a : nat) (lo : tensor K) (his : list (tensor K)) : tensor K :=
  match his with
  | [] => lo
  | hi :: rest => iswt_spec half rlo rhi a (iswt_level half rlo rhi (2 ^ Z.of_nat (List.length rest)) a lo hi) rest
  end.

(** circular shift of x along axis a by s *)
Definition tshift (a : nat) (s : Z) (x : tensor K) : tensor K :=
  along_axes (fun s => s) (fun sh X ks => X [cyc (hd 0 sh) (Z.of_nat (hd 0 ks) + s)]) [a] x.
End SSwt.
