(** Model of src/ptwt/conv_transform.py (definitions only). *)
From Coq Require Import List Arith ZArith Lia Bool String.
From Verif Require Import Base Tensor Util.
Import ListNotations.

Section Conv1.
Context {K : CRing}.
Implicit Types t u : tensor K.

(** torch.nn.functional.pad(data, padding, mode) / _pad_symmetric dispatch shared by the
    three transforms; [padding] = pairs, last axis first (torch order). *)
Definition pad_dispatch t (padding : list (nat * nat)) (m : extmode) : result (tensor K) :=
  match m with
  | ESymmetric => pad_symmetric t (group_for_symmetric padding)
  | EPad pm => fpad t (rev padding) pm
  end.

(** conv_transform.py:33-66 _fwt_pad *)
Definition fwt_pad t (w : wavelet K) (mode : option string) (padding : option (nat * nat))
  : result (tensor K) :=
  let* pm := translate_boundary mode in
  let pad := match padding with None => get_padding_n t w 1 | Some p => [p] end in
  pad_dispatch t pad pm.

(** level argument: explicit, or the pywt default *)
Definition range_level (level : Z) : nat := Z.to_nat level.

(** conv_transform.py:128-133, the loop of wavedec; returns (res_lo, result_list) *)
Fixpoint wavedec_loop (n : nat) (w : wavelet K) (mode : option string) (filt : tensor K)
  (res_lo : tensor K) (acc : list (tensor K)) : result (tensor K * list (tensor K)) :=
  match n with
  | O => Ok (res_lo, acc)
  | S n' =>
      let* p := fwt_pad res_lo w mode None in
      let* res := conv_nd 2 1 p filt in
      match split1 res 1 with
      | [lo; hi] => wavedec_loop n' w mode filt lo (acc ++ [squeeze hi 1])
      | _ => Raise ValueError
      end
  end.

(** conv_transform.py:72-138 wavedec *)
Definition wavedec (data : tensor K) (w : wavelet K) (mode : option string) (level : option Z) (axis : Z)
  : result (pycoeffs K) :=
  let* pp := preprocess_deconstruction data w 1 (AxInt axis) in
  let '(d, ds, dlo, _, filt) := pp in
  let* lev := match level with
              | Some l => Ok l
              | None => let* m := dwt_max_level (dim_last d 1) (dim_last dlo 1) in Ok (Z.of_nat m)
              end in
  let* r := wavedec_loop (range_level lev) w mode filt d [] in
  let '(lo, acc) := r in
  postprocess_coeffs (mkPC true (map PT (rev (acc ++ [squeeze lo 1])))) 1 ds (AxInt axis).

(** conv_transform.py:181-200, one synthesis step; [next] = coeffs[c_pos + 2].shape[-1] *)
Definition waverec_step (filt : tensor K) (filt_len : nat) (res_lo res_hi : tensor K) (next : option nat)
  : result (tensor K) :=
  let* s := stack 1 [res_lo; res_hi] in
  let* ct := conv_transpose_nd 2 1 0 1 s filt in
  let r := squeeze ct 1 in
  let p := (2 * filt_len - 3) / 2 in
  let* ps := match next with
             | None => Ok (p, p)
             | Some nx => adjust_padding (dim_last r 1) nx p p
             end in
  let '(padr, padl) := ps in
  let r1 := if Nat.ltb 0 padl then slice_from r (rank r - 1) padl else r in
  Ok (if Nat.ltb 0 padr then slice_dropend r1 (rank r1 - 1) padr else r1).

Fixpoint waverec_loop (filt : tensor K) (filt_len : nat) (res_lo : tensor K) (his : list (tensor K))
  : result (tensor K) :=
  match his with
  | [] => Ok res_lo
  | hi :: rest =>
      let next := match rest with [] => None | h :: _ => Some (dim_last h 1) end in
      let* r := waverec_step filt filt_len res_lo hi next in
      waverec_loop filt filt_len r rest
  end.

(** elements of a 1d coefficient list must be tensors (torch.stack raises TypeError) *)
Definition as_tensor (v : pyval K) : result (tensor K) :=
  match v with PT t => Ok t | _ => Raise TypeError end.

(** conv_transform.py:146-204 waverec (a non-list sequence is converted to a list first) *)
Definition waverec (coeffs : list (pyval K)) (w : wavelet K) (axis : axishint) : result (tensor K) :=
  let* pp := preprocess_coeffs (mkPC true coeffs) 1 axis false in
  let '(c, ds) := pp in
  let* g := check_same_device_dtype c in
  let '(_, _, rlo, rhi) := get_filter_tensors w false g in
  let* filt := stack 0 [rlo; rhi] in
  let* ts := rmap as_tensor (pc_items c) in
  match ts with
  | [] => Raise IndexError
  | lo :: his =>
      let* r := waverec_loop filt (dim_last rlo 1) lo his in
      postprocess_tensor r 1 ds axis
  end.

End Conv1.
