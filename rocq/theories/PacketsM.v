(** Model of src/ptwt/packets.py with mode="boundary" (definitions only): the one-level transforms are the objects
    of matmul_transform.py / matmul_transform_2.py, which the packet object keeps in dictionaries keyed by the size
    of the transformed axes.  These dictionaries are the backend state of Packets.v. *)
From Coq Require Import List Arith ZArith Lia Bool String Ascii.
From Verif Require Import Base Tensor Util Conv1 Conv2 Sep Sparse Mat1 MatN Packets.
Import ListNotations.

(** dictionaries keyed by a size (an int or a tuple of ints, here the list of sizes) *)
Fixpoint nget {A} (d : list (list nat * A)) (n : list nat) : option A :=
  match d with [] => None | (k, v) :: r => if list_eqb Nat.eqb k n then Some v else nget r n end.
Fixpoint nset {A} (d : list (list nat * A)) (n : list nat) (v : A) : list (list nat * A) :=
  match d with [] => [(n, v)] | (k, u) :: r => if list_eqb Nat.eqb k n then (k, v) :: r else (k, u) :: nset r n v end.
(** look up the transform object for size [n], creating it on first use, and call it; the object that the call leaves
    behind stays in the dictionary also when the call raises *)
Definition cached_call {A X Y} (new : result A) (call : A -> X -> A * result Y) (d : list (list nat * A)) (n : list nat) (x : X)
  : list (list nat * A) * result Y :=
  match (match nget d n with Some o => Ok o | None => new end) with
  | Raise e => (d, Raise e)
  | Ok o => let '(o', r) := call o x in (nset d n o', r)
  end.

Section PacketsM.
Context {K : CRing}.
Variable LA : linalg K.
Implicit Types t : tensor K.

(** res_lo, res_hi = ... (packets.py:314) *)
Definition two_of (c : pycoeffs K) : result (list (tensor K)) :=
  match pc_items c with [PT a; PT d] => Ok [a; d] | _ => Raise ValueError end.
(** packets.py:312-316 _expand_node with _get_wavedec (240-251): MatrixWavedec(wavelet, level=1, axis, orthogonalization) *)
Definition dec1b (w : wavelet K) (method : string) (axis : Z) (d : list (list nat * mwavedec K)) t
  : list (list nat * mwavedec K) * result (list (tensor K)) :=
  match shape_at t axis with
  | Raise e => (d, Raise e)
  | Ok n => let '(d', r) := cached_call (new_mwavedec w (Some 1%Z) (AxInt axis) method (Some "zero"%string)) (mw_call LA) d [n] t in
            (d', let* c := r in two_of c)
  end.
(** packets.py:220-222 with _get_waverec (258-269) *)
Definition rec1b (w : wavelet K) (method : string) (axis : Z) (d : list (list nat * mwaverec K)) (ch : list (tensor K))
  : list (list nat * mwaverec K) * result (tensor K) :=
  match ch with
  | a :: _ =>
      match shape_at a axis with
      | Raise e => (d, Raise e)
      | Ok n => cached_call (new_mwaverec w (AxInt axis) method) (mr_call LA) d [n] (map PT ch)
      end
  | [] => (d, Raise IndexError)
  end.
(** packets.py:67-361, WaveletPacket with mode="boundary" *)
Definition packet1b (w : wavelet K) (method : string) (axis : Z) : backend K :=
  mkBE (list (list nat * mwavedec K) * list (list nat * mwaverec K)) ["a"; "d"]%char
    (fun b t => let '(d, r) := dec1b w method axis (fst b) t in ((d, snd b), r))
    (fun b ch => let '(d, r) := rec1b w method axis (snd b) ch in ((fst b, d), r))
    (crop1 axis)
    (fun l => graycode_order l "a" "d")
    (fun x => let* n := shape_at x axis in dwt_max_level n (get_len w)).

(** assert len(result) == 2; result_a, (result_h, result_v, result_d) = result (packets.py:533-535) *)
Definition four_of (c : pycoeffs K) : result (list (tensor K)) :=
  match pc_items c with
  | [PT a; PTup [h; v; d]] => Ok [a; h; v; d]
  | [_; _] => Raise ValueError
  | _ => Raise AssertionError
  end.
(** packets.py:528-539 with _get_wavedec (541-555) *)
Definition dec2b (w : wavelet K) (method : string) (axes : list Z) (sep : bool) (d : list (list nat * mwavedecn K)) t
  : list (list nat * mwavedecn K) * result (list (tensor K)) :=
  match swap_axes axes t with
  | Raise e => (d, Raise e)
  | Ok s => let '(d', r) := cached_call (new_mwavedecn 2 w (Some 1%Z) (AxSeq axes) method (Some "zero"%string) sep) (mw2_call LA) d (last2 (shp s)) t in
            (d', let* c := r in four_of c)
  end.
(** packets.py:500-513 with _get_waverec (572-584) *)
Definition rec2b (w : wavelet K) (method : string) (axes : list Z) (sep : bool) (d : list (list nat * mwaverecn K)) (ch : list (tensor K))
  : list (list nat * mwaverecn K) * result (tensor K) :=
  match ch with
  | [a; h; v; dd] =>
      match swap_axes axes a with
      | Raise e => (d, Raise e)
      | Ok s => cached_call (new_mwaverecn 2 w (AxSeq axes) method sep) (mr2_call LA) d (last2 (shp s)) [PT a; PTup [h; v; dd]]
      end
  | _ => (d, Raise ValueError)
  end.
(** packets.py:362-772, WaveletPacket2D with mode="boundary" *)
Definition packet2b (w : wavelet K) (method : string) (axes : list Z) (sep : bool) : backend K :=
  mkBE (list (list nat * mwavedecn K) * list (list nat * mwaverecn K)) ["a"; "h"; "v"; "d"]%char
    (fun b t => let '(d, r) := dec2b w method axes sep (fst b) t in ((d, snd b), r))
    (fun b ch => let '(d, r) := rec2b w method axes sep (snd b) ch in ((fst b, d), r))
    (crop2 axes)
    natural_order2
    (fun x => let* s := swap_axes axes x in dwt_max_level (Nat.min (dim_last s 2) (dim_last s 1)) (get_len w)).
(** __init__ (packets.py:122-147, 407-434): axes and method are checked, the dictionaries are empty *)
Definition new_packet1b (w : wavelet K) (method : string) (axis : axishint) : result (Z * (list (list nat * mwavedec K) * list (list nat * mwaverec K))) :=
  let* ax := ensure_axes axis 1 in
  if orth_supported method then Ok (nth 0 ax 0%Z, ([], [])) else Raise NotImplementedError.
End PacketsM.
