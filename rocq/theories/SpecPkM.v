(** Specification of wavelet packet trees with mode="boundary": every letter is one level of the boundary-wavelet
    transform of SpecMat.v (odd sizes are extended by a zero). *)
From Coq Require Import List Arith Bool Ascii.
From Verif Require Import Base Tensor Spec SpecMat SpecMatN.
Import ListNotations.

(** follow the path p, one step per letter *)
Definition packet_walk {T} (step : ascii -> T -> T) (p : list ascii) (x : T) : T := fold_left (fun t c => step c t) p x.
(** the 1d letters along axis a: d = details, a = approximation *)
Definition bw_letter1 {K : CRing} (A : nat -> nat -> nat -> K) (a : nat) (c : ascii) (t : tensor K) : tensor K :=
  if Ascii.eqb c "d" then bw_hi A Mzero a t else bw_lo A Mzero a t.
(** the bands of the 2d letters: h = details along the first axis, v = details along the second axis; the separable
    variant of the code has them the other way round *)
Definition letter_band (swap : bool) (c : ascii) : list bool :=
  if Ascii.eqb c "d" then bHH
  else if Ascii.eqb c (if swap then "v" else "h")%char then bHL
  else if Ascii.eqb c (if swap then "h" else "v")%char then bLH else bLL.
Definition bw_letter2 {K : CRing} (M : list nat -> list nat -> list nat -> K) (nax : list nat) (swap : bool) (c : ascii) (t : tensor K) : tensor K :=
  bwn_band M Mzero nax (letter_band swap c) t.
