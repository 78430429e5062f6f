(** Model of src/ptwt/conv_transform_3.py (definitions only). *)
From Coq Require Import List Arith ZArith Lia Bool String.
From Verif Require Import Base Tensor Util Conv1 Conv2.
Import ListNotations.

Section Conv3.
Context {K : CRing}.
Implicit Types t u : tensor K.

(** conv_transform_3.py:121-142, the loop of wavedec3 *)
Fixpoint wavedec3_loop (n : nat) (w : wavelet K) (mode : option string) (filt : tensor K)
  (res_lll : tensor K) (acc : list (pyval K)) : result (tensor K * list (pyval K)) :=
  match n with
  | O => Ok (res_lll, acc)
  | S n' =>
      let u := if Nat.eqb (rank res_lll) 4 then unsqueeze res_lll 1 else res_lll in
      let* l := analysis_step 3 w mode filt u in
      match map (fun s => squeeze s 1) l with
      | [lll; llh; lhl; lhh; hll; hlh; hhl; hhh] =>
          wavedec3_loop n' w mode filt lll
            (acc ++ [PDict [("aad", llh); ("ada", lhl); ("add", lhh); ("daa", hll); ("dad", hlh); ("dda", hhl); ("ddd", hhh)]%string])
      | _ => Raise ValueError
      end
  end.

(** conv_transform_3.py:76-145 wavedec3 *)
Definition wavedec3 (data : tensor K) (w : wavelet K) (mode : option string) (level : option Z) (axes : axishint)
  : result (pycoeffs K) :=
  let* pp := preprocess_deconstruction data w 3 axes in
  let '(d, ds, _, _, filt) := pp in
  let* lev := match level with
              | Some l => Ok l
              | None => let* m := dwtn_max_level [dim_last d 1; dim_last d 2; dim_last d 3] (get_len w) in Ok (Z.of_nat m)
              end in
  let* r := wavedec3_loop (range_level lev) w mode filt d [] in
  let '(lll, acc) := r in
  postprocess_coeffs (mkPC false (PT lll :: rev acc)) 3 ds axes.

(** dict access d[key]; a missing key is a KeyError *)
Definition dict_get {A} (d : list (string * A)) (k : string) : result A :=
  match find (fun kv => String.eqb (fst kv) k) d with Some kv => Ok (snd kv) | None => Raise KeyError end.

(** coeff_dicts[c_pos + 1]["aad"].shape; indexing a tuple with a str is a TypeError,
    a tensor an IndexError *)
Definition next_shape3 (v : pyval K) : result (list nat) :=
  match v with
  | PDict d => let* t := dict_get d "aad"%string in Ok (shp t)
  | PT _ => Raise IndexError
  | PTup _ | POther => Raise TypeError
  end.

(** conv_transform_3.py:204-248, one synthesis level *)
Definition waverec3_step (filt : tensor K) (filt_len : nat) (lll : tensor K) (d : list (string * tensor K)) (next : option (list nat))
  : result (tensor K) :=
  let* cs := rmap (dict_get d) ["aad"; "ada"; "add"; "daa"; "dad"; "dda"; "ddd"]%string in
  let* s := stack 1 (lll :: cs) in
  let* ct := conv_transpose_nd 2 1 0 1 s filt in
  let r := squeeze ct 1 in
  let p := (2 * filt_len - 3) / 2 in
  let* ps := match next with
             | None => Ok (p, p, (p, p), (p, p))
             | Some nx =>
                 let* a := adjust_padding (dim_last r 1) (shape_last nx 1) p p in
                 let* b := adjust_padding (dim_last r 2) (shape_last nx 2) p p in
                 let* c := adjust_padding (dim_last r 3) (shape_last nx 3) p p in Ok (a, b, c)
             end in
  let '(padr, padl, (padb, padt), (padba, padfr)) := ps in
  Ok (crop_last (crop_last (crop_last r 2 padt padb) 1 padl padr) 3 padfr padba).

(** conv_transform_3.py:191-248, the loop of waverec3 *)
Fixpoint waverec3_loop (filt : tensor K) (filt_len : nat) (res_lll : tensor K) (his : list (pyval K)) : result (tensor K) :=
  match his with
  | [] => Ok res_lll
  | v :: rest =>
      match v with
      | PDict d =>
          if Nat.eqb (List.length d) 7 then
            if forallb (fun kv => list_eqb Nat.eqb (shp (snd kv)) (shp res_lll)) d then
              let* next := match rest with [] => Ok None | h :: _ => let* s := next_shape3 h in Ok (Some s) end in
              let* r := waverec3_step filt filt_len res_lll d next in
              waverec3_loop filt filt_len r rest
            else Raise ValueError
          else Raise ValueError
      | _ => Raise ValueError
      end
  end.

(** conv_transform_3.py:148-250 waverec3 *)
Definition waverec3 (coeffs : pycoeffs K) (w : wavelet K) (axes : axishint) : result (tensor K) :=
  let* pp := preprocess_coeffs coeffs 3 axes false in
  let '(c, ds) := pp in
  let* g := check_same_device_dtype c in
  let '(_, _, rlo, rhi) := get_filter_tensors w false g in
  let* filt := construct_3d_filt rlo rhi in
  match pc_items c with
  | PT lll :: his =>
      let* r := waverec3_loop filt (dim_last rlo 1) lll his in
      postprocess_tensor r 3 ds axes
  | _ => Raise IndexError
  end.

End Conv3.
