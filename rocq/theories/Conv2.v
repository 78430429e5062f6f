(** Model of src/ptwt/conv_transform_2.py (definitions only). *)
From Coq Require Import List Arith ZArith Lia Bool String.
From Verif Require Import Base Tensor Util Conv1.
Import ListNotations.

Section Conv2.
Context {K : CRing}.
Implicit Types t u : tensor K.

(** pywt.dwtn_max_level(shape, wavelet) (pywt/_multilevel.py): the minimum over the axes;
    external, modelled from pywt's source.  An empty shape does not occur. *)
Definition dwtn_max_level (ns : list nat) (L : nat) : result nat :=
  let* ls := rmap (fun n => dwt_max_level n L) ns in
  match ls with [] => Raise ValueError | l :: r => Ok (fold_left Nat.min r l) end.

(** conv_transform_2.py:34-71 _fwt_pad2 and conv_transform_3.py:34-73 _fwt_pad3 (n = 2, 3) *)
Definition fwt_pad_n (n : nat) t (w : wavelet K) (mode : option string) (padding : option (list (nat * nat)))
  : result (tensor K) :=
  let* pm := translate_boundary mode in
  let pad := match padding with None => get_padding_n t w n | Some p => p end in
  pad_dispatch t pad pm.

(** conv_transform_2.py:143-145 and conv_transform_3.py:126-128: pad, convolve with stride 2, split channels *)
Definition analysis_step (n : nat) (w : wavelet K) (mode : option string) (filt : tensor K) t : result (list (tensor K)) :=
  let* p := fwt_pad_n n t w mode None in
  let* res := conv_nd 2 1 p filt in
  Ok (split1 res 1).

(** conv_transform_2.py:140-149, the loop of wavedec2 *)
Fixpoint wavedec2_loop (n : nat) (w : wavelet K) (mode : option string) (filt : tensor K)
  (res_ll : tensor K) (acc : list (pyval K)) : result (tensor K * list (pyval K)) :=
  match n with
  | O => Ok (res_ll, acc)
  | S n' =>
      let* l := analysis_step 2 w mode filt res_ll in
      match l with
      | [ll; lh; hl; hh] =>
          wavedec2_loop n' w mode filt ll (acc ++ [PTup [squeeze lh 1; squeeze hl 1; squeeze hh 1]])
      | _ => Raise ValueError
      end
  end.

(** conv_transform_2.py:74-157 wavedec2 *)
Definition wavedec2 (data : tensor K) (w : wavelet K) (mode : option string) (level : option Z) (axes : axishint)
  : result (pycoeffs K) :=
  let* pp := preprocess_deconstruction data w 2 axes in
  let '(d, ds, _, _, filt) := pp in
  let* lev := match level with
              | Some l => Ok l
              | None => let* m := dwtn_max_level [dim_last d 1; dim_last d 2] (get_len w) in Ok (Z.of_nat m)
              end in
  let* r := wavedec2_loop (range_level lev) w mode filt d [] in
  let '(ll, acc) := r in
  postprocess_coeffs (mkPC false (PT (squeeze ll 1) :: rev acc)) 2 ds axes.

(** res[..., pad_start:] then res[..., :-pad_end] on axis -i (only when positive) *)
Definition crop_last t (i pad_start pad_end : nat) : tensor K :=
  let t1 := if Nat.ltb 0 pad_start then slice_from t (rank t - i) pad_start else t in
  if Nat.ltb 0 pad_end then slice_dropend t1 (rank t1 - i) pad_end else t1.

(** the sizes the following level asks for: coeffs[c_pos + 2][0].shape *)
Definition next_shape2 (v : pyval K) : result (list nat) :=
  match v with
  | PTup (t :: _) => Ok (shp t)
  | PTup [] => Raise IndexError
  | PT t => Ok (tl (shp t))
  | PDict _ => Raise KeyError
  | POther => Raise TypeError
  end.
Definition shape_last (s : list nat) (i : nat) : nat := nth (List.length s - i) s 0.

(** conv_transform_2.py:222-254, one synthesis level *)
Definition waverec2_step (filt : tensor K) (filt_len : nat) (ll lh hl hh : tensor K) (next : option (list nat))
  : result (tensor K) :=
  let* s := stack 1 [ll; lh; hl; hh] in
  let* ct := conv_transpose_nd 2 1 0 1 s filt in
  let r := squeeze ct 1 in
  let p := (2 * filt_len - 3) / 2 in
  let* ps := match next with
             | None => Ok (p, p, (p, p))
             | Some nx =>
                 let* a := adjust_padding (dim_last r 1) (shape_last nx 1) p p in
                 let* b := adjust_padding (dim_last r 2) (shape_last nx 2) p p in Ok (a, b)
             end in
  let '(padr, padl, (padb, padt)) := ps in
  Ok (crop_last (crop_last r 2 padt padb) 1 padl padr).

(** conv_transform_2.py:204-254, the loop of waverec2 *)
Fixpoint waverec2_loop (filt : tensor K) (filt_len : nat) (res_ll : tensor K) (his : list (pyval K)) : result (tensor K) :=
  match his with
  | [] => Ok res_ll
  | v :: rest =>
      match v with
      | PTup [lh; hl; hh] =>
          if forallb (fun c => list_eqb Nat.eqb (shp c) (shp res_ll)) [lh; hl; hh] then
            let* next := match rest with [] => Ok None | h :: _ => let* s := next_shape2 h in Ok (Some s) end in
            let* r := waverec2_step filt filt_len res_ll lh hl hh next in
            waverec2_loop filt filt_len r rest
          else Raise ValueError
      | _ => Raise ValueError
      end
  end.

(** conv_transform_2.py:160-253 waverec2 ([is_list]: the container kind of coeffs) *)
Definition waverec2 (coeffs : pycoeffs K) (w : wavelet K) (axes : axishint) : result (tensor K) :=
  let* pp := preprocess_coeffs coeffs 2 axes false in
  let '(c, ds) := pp in
  let* g := check_same_device_dtype c in
  let '(_, _, rlo, rhi) := get_filter_tensors w false g in
  let* filt := construct_2d_filt rlo rhi in
  match pc_items c with
  | PT ll :: his =>
      let* r := waverec2_loop filt (dim_last rlo 1) ll his in
      postprocess_tensor r 2 ds axes
  | _ => Raise IndexError
  end.

End Conv2.
