(** Model of src/ptwt/stationary_transform.py (definitions only). *)
From Coq Require Import List Arith ZArith Lia Bool String.
From Verif Require Import Base Tensor Util Conv1.
Import ListNotations.

Section Swt.
Context {K : CRing}.
Implicit Types t u : tensor K.

(** stationary_transform.py:37-52, the while loop.  [n] is the trailing dimension of the original tensor.
    [fuel] only makes the loop structural: running out of it stands for non-termination. *)
Fixpoint circ_loop (fuel n : nat) t (padl padr : nat) : result (tensor K) :=
  if Nat.ltb 0 padl || Nat.ltb 0 padr then
    match fuel with
    | O => Raise RecursionError
    | S fuel' =>
        let* t' := fpad t [(Nat.min n padl, Nat.min n padr)] PCircular in
        circ_loop fuel' n t' (padl - n) (padr - n)
    end
  else Ok t.
(** stationary_transform.py:24-54 _circular_pad, for a pair of pad widths (the only use) *)
Definition circular_pad t (padl padr : nat) : result (tensor K) :=
  let n := dim_last t 1 in
  if negb (Nat.ltb n padl || Nat.ltb n padr) then fpad t [(padl, padr)] PCircular
  else circ_loop (padl + padr) n t padl padr.

(** pywt.swt_max_level: how often n is divisible by 2 (0 for n = 0) *)
Fixpoint twos (fuel n : nat) : nat :=
  match fuel with O => 0 | S f => if Nat.eqb n 0 || Nat.odd n then 0 else S (twos f (n / 2)) end.
Definition swt_max_level (n : nat) : nat := twos n n.

(** stationary_transform.py:98-106, the loop of swt; [lvl] = current_level *)
Fixpoint swt_loop (n lvl : nat) (filt : tensor K) (filt_len : nat) (res_lo : tensor K) (acc : list (tensor K))
  : result (tensor K * list (tensor K)) :=
  match n with
  | O => Ok (res_lo, acc)
  | S n' =>
      let dil := 2 ^ lvl in
      let* p := circular_pad res_lo (dil * (filt_len / 2 - 1)) (dil * (filt_len / 2)) in
      let* res := conv_nd 1 dil p filt in
      match split1 res 1 with
      | [lo; hi] => swt_loop n' (S lvl) filt filt_len lo (acc ++ [squeeze hi 1])
      | _ => Raise ValueError
      end
  end.
(** stationary_transform.py:57-110 swt *)
Definition swt (data : tensor K) (w : wavelet K) (level : option Z) (axis : axishint) : result (pycoeffs K) :=
  let* pp := preprocess_tensor data 1 axis true in
  let '(d, ds) := pp in
  let '(dlo, dhi, _, _) := get_filter_tensors w true (ttag d) in
  let* filt := stack 0 [dlo; dhi] in
  let lev := match level with Some l => l | None => Z.of_nat (swt_max_level (dim_last d 1)) end in
  let* r := swt_loop (range_level lev) 0 filt (dim_last dlo 1) d [] in
  let '(lo, acc) := r in
  postprocess_coeffs (mkPC true (map PT (rev (acc ++ [squeeze lo 1])))) 1 ds axis.

(** torch.mean(t, 1) of a tensor with two channels; [half] is the number 1/2 of K *)
Definition mean2 (half : K) t : tensor K :=
  tmake (ttag t) (removen 1 (shp t)) (fun idx => kmul half (kadd (get t (insertn 1 0 idx)) (get t (insertn 1 1 idx)))).

(** stationary_transform.py:147-158, the loop of iswt; dilation = 2 ** (number of remaining tensors) *)
Fixpoint iswt_loop (half : K) (filt : tensor K) (filt_len : nat) (res_lo : tensor K) (his : list (tensor K)) : result (tensor K) :=
  match his with
  | [] => Ok res_lo
  | hi :: rest =>
      let dil := 2 ^ (List.length rest) in
      let* s := stack 1 [res_lo; hi] in
      let padl := dil * (filt_len / 2) in
      let padr := dil * (filt_len / 2 - 1) in
      let* p := circular_pad s padl padr in
      let* ct := conv_transpose_nd 1 dil (padl + padr) 2 p filt in
      iswt_loop half filt filt_len (mean2 half ct) rest
  end.
(** stationary_transform.py:113-160 iswt (a non-list sequence is converted to a list first) *)
Definition iswt (half : K) (coeffs : list (pyval K)) (w : wavelet K) (axis : axishint) : result (tensor K) :=
  let* pp := preprocess_coeffs (mkPC true coeffs) 1 axis false in
  let '(c, ds) := pp in
  let* g := check_same_device_dtype c in
  let '(_, _, rlo, rhi) := get_filter_tensors w false g in
  let* filt := stack 0 [rlo; rhi] in
  let* ts := rmap as_tensor (pc_items c) in
  match ts with
  | [] => Raise IndexError
  | lo :: his =>
      let* r := iswt_loop half filt (dim_last rlo 1) lo his in
      postprocess_tensor r 1 ds axis
  end.
End Swt.
