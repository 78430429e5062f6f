(** Specifications of the 2d/3d transforms: separable DWT with one filter per axis, packed in
    ptwt's containers (only the container datatypes of [Util] are used). *)
From Coq Require Import List Arith ZArith Lia Bool String Ascii.
From Verif Require Import Base Tensor Util Spec.
Import ListNotations.

Section S2.
Context {K : CRing}.
Implicit Types lo hi : list K.

(** pywt orientation: horizontal = high-pass along the first (row index) axis and low-pass along
    the second one, vertical the other way round, diagonal both high-pass *)
Definition details2 lo hi (m : mode) (nax : list nat) (j : nat) (x : tensor K) : pyval K :=
  PTup [detail lo [hi; lo] m nax j x; detail lo [lo; hi] m nax j x; detail lo [hi; hi] m nax j x].
Definition wavedec2_spec lo hi m nax J (x : tensor K) : pycoeffs K :=
  mkPC false (PT (approx lo m nax J x) :: map (fun j => details2 lo hi m nax j x) (rev (seq 1 J))).

(** the filter a key letter stands for *)
Definition key_filters lo hi (s : string) : list (list K) :=
  map (fun c => if Ascii.eqb c "d"%char then hi else lo) (list_ascii_of_string s).
Definition keys3 : list string := ["aad"; "ada"; "add"; "daa"; "dad"; "dda"; "ddd"]%string.
Definition details3 lo hi (m : mode) (nax : list nat) (j : nat) (x : tensor K) : pyval K :=
  PDict (map (fun k => (k, detail lo (key_filters lo hi k) m nax j x)) keys3).
Definition wavedec3_spec lo hi m nax J (x : tensor K) : pycoeffs K :=
  mkPC false (PT (approx lo m nax J x) :: map (fun j => details3 lo hi m nax j x) (rev (seq 1 J))).

(** all axes admissible at every level *)
Definition levels_all (m : mode) (L J : nat) (ns : list nat) : Prop := Forall (levels_ok m L J) ns.

(** number of levels: explicit or the smallest default over the axes *)
Definition default_level (L n : nat) : nat := if Nat.ltb n (L - 1) then 0 else Nat.log2 (n / (L - 1)).
Definition num_levels (level : option Z) (L : nat) (ns : list nat) : nat :=
  match level with
  | Some z => Z.to_nat z
  | None => match ns with [] => 0 | n :: r => fold_left Nat.min (map (default_level L) r) (default_level L n) end
  end.

(** * Inverse transforms.  [fs]: the synthesis filters of channel c on each axis, channel 0 being the
    approximation.  A level maps sizes k to 2k+2-L, or to the sizes of the next level's details. *)
Definition recN_outs (L : nat) (nax : list nat) (lo : tensor K) (rest : list (list (tensor K))) : list nat :=
  match rest with
  | (h :: _) :: _ => gather nax 0 (shp h)
  | _ => map (fun k => 2 * k + 2 - L) (gather nax 0 (shp lo))
  end.
Definition idwtN (L : nat) (fs : list (list (list K))) (nax : list nat) (lo : tensor K) (ds : list (tensor K)) (outs : list nat) : tensor K :=
  idwt_axes L (List.length fs) (fun c => nth c fs []) nax (fun c => nth c (lo :: ds) lo) outs.
Fixpoint recN_spec (L : nat) (fs : list (list (list K))) (nax : list nat) (lo : tensor K) (levels : list (list (tensor K))) : tensor K :=
  match levels with
  | [] => lo
  | ds :: rest => recN_spec L fs nax (idwtN L fs nax lo ds (recN_outs L nax lo rest)) rest
  end.
Definition chans2 (rlo rhi : list K) : list (list (list K)) := [[rlo; rlo]; [rhi; rlo]; [rlo; rhi]; [rhi; rhi]].
Definition chans3 (rlo rhi : list K) : list (list (list K)) := map (key_filters rlo rhi) ("aaa"%string :: keys3).
(** sizes (along the transformed axes) of the levels fit together *)
Fixpoint sizes_fit (L : nat) (ks : list nat) (dss : list (list nat)) : Prop :=
  match dss with
  | [] => True
  | d :: rest => d = ks /\ Forall (fun k => 1 <= k) ks /\
      match rest with
      | [] => True
      | n :: _ => Forall2 (fun k o => o + L = 2 * k + 2 \/ o + L = 2 * k + 1) ks n /\ sizes_fit L n rest
      end
  end.
Definition levels2 (levels : list (list (tensor K))) : list (pyval K) := map PTup levels.
Definition levels3 (levels : list (list (tensor K))) : list (pyval K) := map (fun ds => PDict (combine keys3 ds)) levels.
End S2.
