(** Specification of the boundary-wavelet transforms in two and three dimensions: the containers.  Nothing here refers
    to the model of the code, except for the type of coefficient containers (Util.v). *)
From Coq Require Import List Arith ZArith Bool String Ascii.
From Verif Require Import Base Tensor Util Spec SpecMat.
Import ListNotations.

Section SMN.
Context {K : CRing}.
Definition bLL := [false; false].  (* approximation along both axes *)
Definition bLH := [false; true].   (* first axis: approximation, second axis: details *)
Definition bHL := [true; false].
Definition bHH := [true; true].
(** (cA_J, (d_J, d'_J, d''_J), ..., (d_1, d'_1, d''_1)); [ks] are the three detail bands in the order of the tuples *)
Definition bwn2_coeffs (M : list nat -> list nat -> list nat -> K) (m : mode) (axs : list nat) (ks : list (list bool)) (J : nat) (x : tensor K) : pycoeffs K :=
  mkPC false (PT (bwn_approx M m axs J x) :: map (fun j => PTup (map (fun k => bwn_band M m axs k (bwn_approx M m axs j x)) ks)) (rev (seq 0 J))).
(** The rows and columns of a matrix that acts on whole h x v images, stored column by column: sample (k, l) is column
    l h + k.  The rows come in four blocks of (h/2)(v/2) - approximation, details along the first axis, details along
    the second axis, details along both - and inside a block they are stored column by column again. *)
Definition image_col (h k l : nat) : nat := l * h + k.
Definition image_row (h v i j : nat) : nat :=
  let block := (if Nat.ltb i (h / 2) then 0 else 1) + (if Nat.ltb j (v / 2) then 0 else 2) in
  let i' := if Nat.ltb i (h / 2) then i else i - h / 2 in
  let j' := if Nat.ltb j (v / 2) then j else j - v / 2 in
  block * ((h / 2) * (v / 2)) + image_col (h / 2) i' j'.
(** a batch of images [b; h; v] as a matrix: image q is the column q, its pixel (k, l) is in row l h + k *)
Definition image_columns (t : tensor K) : tensor K :=
  match shp t with
  | [b; h; v] => tmake (ttag t) [v * h; b]%nat (fun idx => match idx with [p; q] => get t [q; p mod h; p / h]%nat | _ => kzero end)
  | _ => t
  end.
Definition image_matrix (A : nat -> nat -> nat -> nat -> K) (s is js : list nat) : K :=
  match s, is, js with
  | [h; v], [i; j], [k; l] => A h v (image_row h v i j) (image_col h k l)
  | _, _, _ => kzero
  end.
(** the key of a band: one letter per axis, d for details *)
Fixpoint band_key (k : list bool) : string := match k with [] => EmptyString | d :: k' => String (if d then "d"%char else "a"%char) (band_key k') end.
(** (cA_J, {...}_J, ..., {...}_1); [ks] are the seven detail bands in the order of the dictionaries *)
Definition bwn3_coeffs (M : list nat -> list nat -> list nat -> K) (m : mode) (axs : list nat) (ks : list (list bool)) (J : nat) (x : tensor K) : pycoeffs K :=
  mkPC false (PT (bwn_approx M m axs J x) :: map (fun j => PDict (map (fun k => (band_key k, bwn_band M m axs k (bwn_approx M m axs j x))) ks)) (rev (seq 0 J))).
(** the detail bands of MatrixWavedec3, in the order of its dictionaries *)
Definition bands3 : list (list bool) :=
  [[true; false; false]; [false; true; false]; [true; true; false]; [false; false; true]; [true; false; true]; [false; true; true]; [true; true; true]].
End SMN.
