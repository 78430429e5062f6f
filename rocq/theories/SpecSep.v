(** Specification of the separable transforms in N dimensions. *)
From Coq Require Import List Arith ZArith Lia Bool String Ascii.
From Verif Require Import Base Tensor Util Spec Spec2.
Import ListNotations.

(** words over {a,d}: n letters in front of [key] *)
Fixpoint words (n : nat) (key : string) : list string :=
  match n with O => [key] | S n' => words n' (String "a" key) ++ words n' (String "d" key) end.
(** all words of length n but the first one, aa..a *)
Definition detail_keys (n : nat) : list string := tl (words n EmptyString).
Definition ad_word (s : string) : Prop := Forall (fun c => c = "a"%char \/ c = "d"%char) (list_ascii_of_string s).

Section SS.
Context {K : CRing}.
Implicit Types lo hi : list K.
(** level j: under key s the DWT of the level j-1 approximation with the filters named by s *)
Definition detailsN lo hi (m : mode) (nax : list nat) (j : nat) (x : tensor K) : list (string * tensor K) :=
  map (fun k => (k, detail lo (key_filters lo hi k) m nax j x)) (detail_keys (List.length nax)).
Definition wavedecn_spec lo hi m nax J (x : tensor K) : pycoeffs K :=
  mkPC false (PT (approx lo m nax J x) :: map (fun j => PDict (detailsN lo hi m nax j x)) (rev (seq 1 J))).
End SS.
