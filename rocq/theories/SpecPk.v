(** Specification of wavelet packet trees, independent of the dictionary that stores them. *)
From Coq Require Import List Arith ZArith Lia Bool String Ascii.
From Verif Require Import Base Tensor Spec.
Import ListNotations.

(** the member of a list of children that belongs to a letter *)
Fixpoint child {A} (letters : list ascii) (ch : list A) (c : ascii) : option A :=
  match letters, ch with
  | l :: ls, v :: vs => if Ascii.eqb l c then Some v else child ls vs c
  | _, _ => None
  end.

(** [node_at analyse letters x p]: start from x and follow the path p, applying one analysis step per letter
    and keeping the child with that name.  A letter outside the alphabet is a ValueError (reported for the
    last such letter). *)
Section Node.
Context {T : Type}.
Fixpoint node_up (analyse : T -> result (list T)) (letters : list ascii) (x : T) (rp : list ascii) : result T :=
  match rp with
  | [] => Ok x
  | c :: up =>
      if existsb (Ascii.eqb c) letters then
        let* v := node_up analyse letters x up in
        let* ch := analyse v in
        match child letters ch c with Some u => Ok u | None => Raise KeyError end
      else Raise ValueError
  end.
Definition node_at analyse letters x (p : list ascii) : result T := node_up analyse letters x (rev p).

(** bottom-up reconstruction of the node p whose subtree has depth n: the leaves are given by [leaf], the
    values of the inner nodes are only used to fit the size ([fit rec inner]) *)
Fixpoint rebuild (synth : list T -> result T) (fit : T -> T -> result T) (letters : list ascii)
  (leaf inner : list ascii -> option T) (n : nat) (p : list ascii) : result T :=
  match n with
  | O => match leaf p with Some v => Ok v | None => Raise KeyError end
  | S n' =>
      let* ch := rmap (fun c => rebuild synth fit letters leaf inner n' (p ++ [c])) letters in
      let* r := synth ch in
      match p with
      | [] => Ok r
      | _ => match inner p with Some v => fit r v | None => Raise KeyError end
      end
  end.
End Node.
(** all words over the alphabet *)
Definition word (letters p : list ascii) : Prop := Forall (fun c => In c letters) p.

(** ** node orders *)
(** the word of length n whose letters are the base-k digits of i, most significant first *)
Definition digits (letters : list ascii) (n i : nat) : list ascii :=
  let k := List.length letters in
  map (fun j => nth ((i / k ^ (n - 1 - j)) mod k) letters " "%char) (seq 0 n).
(** binary-reflected Gray code of i *)
Definition gray (i : nat) : nat := Nat.lxor i (i / 2).
Definition one_letter_apart (p q : list ascii) : Prop :=
  exists u c c' v, p = u ++ c :: v /\ q = u ++ c' :: v /\ c <> c'.

(** the 2d node with the given vertical (row) and horizontal (column) filters: l is the low pass, h the high
    pass; a = (l, l), h = (h, l), v = (l, h), d = (h, h) *)
Definition letter2 (r c : ascii) : ascii :=
  (if Ascii.eqb r "h" then (if Ascii.eqb c "h" then "d" else "h") else (if Ascii.eqb c "h" then "v" else "a"))%char.
Fixpoint path2 (row col : list ascii) : list ascii :=
  match row, col with r :: row', c :: col' => letter2 r c :: path2 row' col' | _, _ => [] end.

(** what reading node k of the packet tree of x must return when the tree has m levels *)
Definition packet_read {T} (analyse : T -> result (list T)) (letters : list ascii) (x : T) (m : Z) (k : list ascii) : result T :=
  match k with
  | [] => Ok x
  | _ => if (Z.of_nat (List.length k) <=? m)%Z then node_at analyse letters x k else Raise KeyError
  end.
(** the node p: one level of the DWT per letter, with the filters [fil c] along the axes nax *)
Definition packet_node {K : CRing} (fil : ascii -> list (list K)) (m : mode) (nax : list nat) (p : list ascii) (x : tensor K) : tensor K :=
  fold_left (fun t c => dwt_axes (fil c) m nax t) p x.
(** filters of the 1d letters, one axis *)
Definition filters1 {K : CRing} (lo hi : list K) (c : ascii) : list (list K) := [if Ascii.eqb c "d" then hi else lo].
(** filters of the 2d letters: h = (high, low) along (rows, columns), v = (low, high); the separable
    variant of the code has them the other way round *)
Definition filters2 {K : CRing} (swap : bool) (lo hi : list K) (c : ascii) : list (list K) :=
  if Ascii.eqb c "d" then [hi; hi]
  else if Ascii.eqb c (if swap then "v" else "h")%char then [hi; lo]
  else if Ascii.eqb c (if swap then "h" else "v")%char then [lo; hi] else [lo; lo].

(** ** one read of an arbitrary tree *)
(** r is the longest prefix of q = r ++ t that is stored *)
Definition nearest {T} (stored : list ascii -> option T) (r t : list ascii) : Prop :=
  forall t1 t2, t = t1 ++ t2 -> t1 <> [] -> stored (r ++ t1) = None.
(** reading q with result [res] takes the stored nodes from [before] to [after]: the value is computed from the nearest stored ancestor
    (q itself if it is stored); on the way all children of the nodes between that ancestor and q are stored anew, as far as the analysis
    succeeds, and nothing else changes.  A path with a foreign letter changes nothing. *)
Definition read_as {T} (analyse : T -> result (list T)) (letters : list ascii) (before after : list ascii -> option T) (q : list ascii) (res : result T) : Prop :=
  exists r t v, q = r ++ t /\ before r = Some v /\ nearest before r t /\
    res = node_at analyse letters v t /\
    (word letters t -> forall t1 c1 t2 c u, t = t1 ++ c1 :: t2 -> node_at analyse letters v (t1 ++ [c]) = Ok u -> after (r ++ t1 ++ [c]) = Some u) /\
    (forall k, (forall t1 c1 t2 c u, t = t1 ++ c1 :: t2 -> node_at analyse letters v (t1 ++ [c]) = Ok u -> k <> r ++ t1 ++ [c]) -> after k = before k) /\
    (~ word letters t -> forall k, after k = before k).
