(** Model of src/ptwt/matmul_transform_2.py and src/ptwt/matmul_transform_3.py (definitions only).

    As in Mat1.v an object is a record and a call returns the object it leaves behind.  MatrixWavedec2 and
    MatrixWavedec3 (and MatrixWaverec2/3) share one record: sizes, pads and matrices are lists over the transformed
    axes in their order (height, width or depth, height, width).  The tuple pad of _matrix_pad_2 is (width, height);
    it is stored here in axis order.  Not modelled: the warnings on stderr. *)
From Coq Require Import List Arith ZArith Lia Bool String Ascii.
From Verif Require Import Base Tensor Util Conv1 Conv2 Sep Sparse Mat1.
Import ListNotations.

Section MatN.
Context {K : CRing}.
Variable LA : linalg K.
Implicit Types (m : smat K) (t : tensor K) (w : wavelet K).

(** ** the non-separable matrices *)
(** dec_filt.squeeze(1), unpacked into four *)
Definition four_filters (f : tensor K) : result (list (tensor K)) :=
  let f' := squeeze f 1 in
  if Nat.eqb (nth 0 (shp f') 0) 4 then Ok (map (fun t => squeeze t 0) (map (fun i => narrow f' 0 i 1) (seq 0 4))) else Raise ValueError.
Fixpoint sp_cats m (l : list (smat K)) : result (smat K) :=
  match l with [] => Ok m | a :: l' => let* c := sp_cat m a in sp_cats c l' end.
(** the four strided convolution matrices, concatenated *)
Definition raw_2d (lo hi : tensor K) (h w : nat) (mode : string) : result (smat K) :=
  let* f := construct_2d_filt lo hi in
  let* fs := four_filters f in
  let* ms := rmap (fun f => construct_strided_conv2d_matrix f h w 2 mode) fs in
  match ms with a :: r => sp_cats a r | [] => Raise RuntimeError end.
(** matmul_transform_2.py:57-97 _construct_a_2 *)
Definition construct_a_2 (g : tag) w (h wd : nat) (mode : string) : result (smat K) :=
  let '(dlo, dhi, _, _) := get_filter_tensors w false g in raw_2d dlo dhi h wd mode.
(** matmul_transform_2.py:100-151 _construct_s_2: flipped reconstruction filters, transposed *)
Definition construct_s_2 (g : tag) w (h wd : nat) (mode : string) : result (smat K) :=
  let '(_, _, rlo, rhi) := get_filter_tensors w true g in let* s := raw_2d rlo rhi h wd mode in Ok (sp_t (coalesce s)).
(** matmul_transform_2.py:154-191 construct_boundary_a2, :194-231 construct_boundary_s2 *)
Definition construct_boundary_a2 (g : tag) w (h wd : nat) (method : string) : result (smat K) :=
  let* a := construct_a_2 g w h wd "sameshift" in orthogonalize LA a (List.length (dec_lo w) * List.length (dec_lo w)) method.
Definition construct_boundary_s2 (g : tag) w (h wd : nat) (method : string) : result (smat K) :=
  let* s := construct_s_2 g w h wd "sameshift" in
  let* o := orthogonalize LA (sp_t s) (List.length (rec_lo w) * List.length (rec_lo w)) method in Ok (sp_t o).

(** ** MatrixWavedec2 and MatrixWavedec3: the object *)
Record mwavedecn := mkMWN { wn_wav : wavelet K; wn_level : option Z; wn_axes : list Z; wn_method : string; wn_odd : option string;
  wn_sep : bool; wn_shape : option (list nat); wn_mats : list (list (smat K)); wn_pads : list (list bool); wn_padded : bool; wn_sizes : list (list nat) }.
(** matmul_transform_2.py:283-345 and matmul_transform_3.py:79-131 __init__ (N = 2, 3; sep is True in 3d) *)
Definition new_mwavedecn (N : nat) w (level : option Z) (axes : axishint) (method : string) (odd : option string) (sep : bool) : result mwavedecn :=
  let* ax := ensure_axes axes N in
  if negb (orth_supported method) then Raise NotImplementedError
  else if negb (Nat.eqb (List.length (dec_lo w)) (List.length (rec_lo w))) then Raise ValueError
  else Ok (mkMWN w level ax method odd sep None [] [] false []).
(** _matrix_pad_2 (matmul_transform_2.py:234-242), _matrix_pad_3 (matmul_transform_3.py:50-63): the even sizes and
    which of the axes are padded *)
Definition isodd (n : nat) : bool := negb (Nat.eqb (n mod 2) 0).
Definition matrix_pad (s : list nat) : list nat * list bool := (map (fun n => if isodd n then S n else n) s, map isodd s).
(** the matrices of one level *)
Definition level_mats_a (sep : bool) (g : tag) w (method : string) (s : list nat) : result (list (smat K)) :=
  if sep then rmap (fun n => construct_boundary_a LA g w n method) s
  else match s with [h; wd] => let* m := construct_boundary_a2 g w h wd method in Ok [m] | _ => Raise ValueError end.
Definition level_mats_s (sep : bool) (g : tag) w (method : string) (s : list nat) : result (list (smat K)) :=
  if sep then rmap (fun n => construct_boundary_s LA g w n method) s
  else match s with [h; wd] => let* m := construct_boundary_s2 g w h wd method in Ok [m] | _ => Raise ValueError end.
(** matmul_transform_2.py:385-447, matmul_transform_3.py:133-192 _construct_analysis_matrices *)
Fixpoint build_analysis_n (fuel : nat) (sep : bool) (g : tag) w (method : string) (curr : list nat)
  (mats : list (list (smat K))) (pads : list (list bool)) (padded : bool) (sizes : list (list nat))
  : (list (list (smat K)) * list (list bool) * bool * list (list nat)) * option exn :=
  match fuel with
  | O => ((mats, pads, padded, sizes ++ [curr]), None)
  | S fuel' =>
      if existsb (fun n => Nat.ltb n (List.length (dec_lo w))) curr then ((mats, pads, padded, sizes ++ [curr]), None)
      else
        let '(c, p) := matrix_pad curr in
        let padded' := padded || existsb (fun b => b) p in
        match level_mats_a sep g w method c with
        | Raise e => ((mats, pads ++ [p], padded', sizes ++ [c]), Some e)
        | Ok l => build_analysis_n fuel' sep g w method (map (fun n => n / 2) c) (mats ++ [l]) (pads ++ [p]) padded' (sizes ++ [c])
        end
  end.
(** int(np.min([np.log2(n / (wlen - 1)) ...])): rounding towards zero is monotone; an empty axis gives -inf *)
Definition mat_level_n (L : nat) (s : list nat) : result Z :=
  let* ls := rmap (mat_level L) s in
  match ls with [] => Raise ValueError | l :: r => Ok (fold_left Z.min r l) end.
Definition with_state_n (o : mwavedecn) (shape : list nat) (lev : option Z) (b : list (list (smat K)) * list (list bool) * bool * list (list nat)) : mwavedecn :=
  let '(ms, ps, pd, sz) := b in mkMWN (wn_wav o) lev (wn_axes o) (wn_method o) (wn_odd o) (wn_sep o) (Some shape) ms ps pd sz.
Definition same_shape (o : option (list nat)) (s : list nat) : bool := match o with Some l => list_eqb Nat.eqb l s | None => false end.
(** the first part of __call__ (matmul_transform_2.py:471-495, matmul_transform_3.py:208-239): remember the shape,
    fix the level, build the matrices if necessary *)
Definition prepare_n (o : mwavedecn) (s : list nat) (g : tag) : mwavedecn * option exn :=
  let rebuild := negb (same_shape (wn_shape o) s) in
  let old := (wn_mats o, wn_pads o, wn_padded o, wn_sizes o) in
  match (match wn_level o with
         | None => let* l := mat_level_n (get_len (wn_wav o)) s in Ok (l, true)
         | Some l => if (l <=? 0)%Z then Raise ValueError else Ok (l, rebuild) end) with
  | Raise e => (with_state_n o s (wn_level o) old, Some e)
  | Ok (lev, rb) =>
      if (match wn_mats o with [] => true | _ => false end) || rb then
        let '(b, err) := build_analysis_n (Z.to_nat lev) (wn_sep o) g (wn_wav o) (wn_method o) s [] [] false [] in
        (with_state_n o s (Some lev) b, err)
      else (with_state_n o s (Some lev) old, None)
  end.

(** ** MatrixWavedec2.__call__ *)
(** torch.split(t, h, dim=d) unpacked into two *)
Definition split2 t (d h : nat) : result (tensor K * tensor K) :=
  let n := nth d (shp t) 0 in
  if Nat.eqb h 0 then Raise RuntimeError
  else if Nat.ltb h n && Nat.leb n (2 * h) then Ok (narrow t d 0 h, narrow t d h (n - h)) else Raise ValueError.
(** matmul_transform_2.py:500-511 _add_padding; the pad tuples are given last axis first *)
Definition pads_of (p : list bool) : list (nat * nat) := map (fun b : bool => if b then (0, 1) else (0, 0)) p.
Definition add_padding w (odd : option string) t (p : list bool) : result (tensor K) :=
  if existsb (fun b => b) p then fwt_pad_n 2 t w odd (Some (rev (pads_of p))) else Ok t.
(** matmul_transform_2.py:514-528, one separable level: ll and the details *)
Definition mw2_step w (odd : option string) (mats : list (smat K)) (p : list bool) (size : list nat) t
  : result (tensor K * list (tensor K)) :=
  match mats with
  | [row; col] =>
      let* t0 := add_padding w odd t p in
      let* t1 := batch_mm col (transpose t0 1 2) in
      let* t2 := batch_mm row (transpose t1 1 2) in
      let* ad := split2 t2 1 (nth 0 size 0 / 2) in
      let* l := split2 (fst ad) 2 (nth 1 size 0 / 2) in
      let* h := split2 (snd ad) 2 (nth 1 size 0 / 2) in
      Ok (fst l, [snd l; fst h; snd h])
  | _ => Raise ValueError
  end.
Fixpoint mw2_loop w (odd : option string) (mats : list (list (smat K))) (pads : list (list bool)) (sizes : list (list nat)) t (acc : list (pyval K))
  : result (tensor K * list (pyval K)) :=
  match mats, pads, sizes with
  | ms :: mats', p :: pads', s :: sizes' =>
      let* r := mw2_step w odd ms p s t in mw2_loop w odd mats' pads' sizes' (fst r) (PTup (snd r) :: acc)
  | [], _, _ => Ok (t, acc)
  | _, _, _ => Raise IndexError
  end.
(** the image as a matrix of column-major vectors: t.transpose(-2, -1).reshape([b, -1]).T, and back *)
Definition to_cols t : result (tensor K) := let* r := reshape_last (transpose t 1 2) [nth 0 (shp t) 0] in Ok (tT r).
Definition of_cols v (b h wd : nat) : result (tensor K) := let* r := reshape (tT v) [b; wd; h] in Ok (transpose r 1 2).
(** torch.split(coefficients, c) where four parts are expected *)
Definition split4 t (c : nat) : result (list (tensor K)) :=
  if Nat.eqb c 0 then Raise RuntimeError
  else if Nat.eqb (nth 0 (shp t) 0) (4 * c) then Ok (map (fun i => narrow t 0 (i * c) c) (seq 0 4)) else Raise TypeError.
(** matmul_transform_2.py:530-560, the non-separable levels; v holds column-major vectors *)
Fixpoint mw2n_loop w (odd : option string) (b : nat) (mats : list (list (smat K))) (pads : list (list bool)) (sizes : list (list nat)) (v : tensor K) (acc : list (pyval K))
  : result (tensor K * list (pyval K)) :=
  match mats, pads, sizes with
  | [m] :: mats', p :: pads', s :: sizes' =>
      let h := nth 0 s 0 in let wd := nth 1 s 0 in
      let* v' := (if existsb (fun x => x) p then
                    let* i := of_cols v b (h - (if nth 0 p false then 1 else 0)) (wd - (if nth 1 p false then 1 else 0)) in
                    let* i' := add_padding w odd i p in to_cols i'
                  else Ok v) in
      let* c := sp_dense_mm m v' in
      let* parts := split4 c ((h / 2) * (wd / 2)) in
      let* imgs := rmap (fun e => of_cols e b (h / 2) (wd / 2)) (tl parts) in
      mw2n_loop w odd b mats' pads' sizes' (hd v parts) (PTup imgs :: acc)
  | [], _, _ => Ok (v, acc)
  | _, _, _ => Raise IndexError
  end.
(** matmul_transform_2.py:451-567 __call__.  Without any level the non-separable branch reads the unbound variable
    size. *)
Definition mw2_call (o : mwavedecn) (x : tensor K) : mwavedecn * result (pycoeffs K) :=
  match preprocess_tensor x 2 (AxSeq (wn_axes o)) false with
  | Raise e => (o, Raise e)
  | Ok (t, ds) =>
      let '(o', err) := prepare_n o (tl (shp t)) (ttag t) in
      match err with
      | Some e => (o', Raise e)
      | None =>
          (o', let* r := (if wn_sep o' then mw2_loop (wn_wav o') (wn_odd o') (wn_mats o') (wn_pads o') (wn_sizes o') t []
                          else
                            let b := nth 0 (shp t) 0 in
                            let* v := to_cols t in
                            let* r := mw2n_loop (wn_wav o') (wn_odd o') b (wn_mats o') (wn_pads o') (wn_sizes o') v [] in
                            match wn_mats o' with
                            | [] => Raise UnboundLocalError
                            | _ => let s := nth (List.length (wn_mats o') - 1) (wn_sizes o') [] in
                                   let* ll := of_cols (fst r) b (nth 0 s 0 / 2) (nth 1 s 0 / 2) in Ok (ll, snd r)
                            end) in
               postprocess_coeffs (mkPC false (PT (fst r) :: snd r)) 2 ds (AxSeq (wn_axes o')))
      end
  end.
(** matmul_transform_2.py:347-383 sparse_fwt_operator *)
Definition sparse_fwt_operator_2 (o : mwavedecn) : result (smat K) :=
  if wn_sep o then Raise NotImplementedError
  else match wn_mats o with
       | [] => Raise ValueError
       | [[a]] => Ok a
       | l => if wn_padded o then Raise NotImplementedError
              else match List.concat l with a :: r => fold_fwt a r | [] => Raise ValueError end
       end.

(** ** MatrixWavedec3.__call__ *)
(** matmul_transform_3.py:256-268 _split_rec: the tensors under 3-letter keys, in insertion order *)
Fixpoint split_rec (fuel : nat) (N : nat) t (key : string) : result (list (string * tensor K)) :=
  match fuel with
  | O => Ok [(key, t)]
  | S fuel' =>
      let d := rank t - (N - fuel') in
      let* p := split2 t d (nth d (shp t) 0 / 2) in
      let* a := split_rec fuel' N (fst p) ("a" ++ key)%string in
      let* b := split_rec fuel' N (snd p) ("d" ++ key)%string in
      Ok (a ++ b)
  end.
(** matmul_transform_3.py:252-253: the matrices (last axis first) along the axes -1, -2, ... *)
Fixpoint mats_dims (rmats : list (smat K)) t (i : nat) : result (tensor K) :=
  match rmats with
  | [] => Ok t
  | m :: r => let* u := batch_dim_mm m t (rank t - i) in mats_dims r u (S i)
  end.
(** matmul_transform_3.py:241-280, one level *)
Definition mw3_step w (odd : option string) (mats : list (smat K)) (p : list bool) t : result (tensor K * sdict (K := K)) :=
  let* t0 := fwt_pad_n 3 t w odd (Some (rev (pads_of p))) in
  let* t1 := mats_dims (rev mats) t0 1 in
  let* d := split_rec 3 3 t1 "" in
  match Sep.dict_get d "aaa" with
  | Some lll => Ok (lll, filter (fun kv => negb (String.eqb (fst kv) "aaa")) d)
  | None => Raise KeyError
  end.
Fixpoint mw3_loop w (odd : option string) (mats : list (list (smat K))) (pads : list (list bool)) t (acc : list (pyval K))
  : result (tensor K * list (pyval K)) :=
  match mats, pads with
  | ms :: mats', p :: pads' => let* r := mw3_step w odd ms p t in mw3_loop w odd mats' pads' (fst r) (PDict (snd r) :: acc)
  | [], _ => Ok (t, acc)
  | _, _ => Raise IndexError
  end.
(** matmul_transform_3.py:194-290 __call__ *)
Definition mw3_call (o : mwavedecn) (x : tensor K) : mwavedecn * result (pycoeffs K) :=
  match preprocess_tensor x 3 (AxSeq (wn_axes o)) false with
  | Raise e => (o, Raise e)
  | Ok (t, ds) =>
      let '(o', err) := prepare_n o (tl (shp t)) (ttag t) in
      match err with
      | Some e => (o', Raise e)
      | None =>
          (o', let* r := mw3_loop (wn_wav o') (wn_odd o') (wn_mats o') (wn_pads o') t [] in
               postprocess_coeffs (mkPC false (PT (fst r) :: snd r)) 3 ds (AxSeq (wn_axes o')))
      end
  end.

(** ** MatrixWaverec2 and MatrixWaverec3: the object *)
Record mwaverecn := mkMRN { rn_wav : wavelet K; rn_axes : list Z; rn_method : string; rn_sep : bool;
  rn_mats : list (list (smat K)); rn_level : option nat; rn_shape : option (list nat); rn_padded : bool }.
(** matmul_transform_2.py:585-638, matmul_transform_3.py:296-335 __init__ *)
Definition new_mwaverecn (N : nat) w (axes : axishint) (method : string) (sep : bool) : result mwaverecn :=
  let* ax := ensure_axes axes N in
  if negb (orth_supported method) then Raise NotImplementedError
  else if negb (Nat.eqb (List.length (dec_lo w)) (List.length (rec_lo w))) then Raise ValueError
  else Ok (mkMRN w ax method sep [] None None false).
(** matmul_transform_2.py:677-733, matmul_transform_3.py:337-390 _construct_synthesis_matrices *)
Fixpoint build_synthesis_n (fuel : nat) (sep : bool) (g : tag) w (method : string) (curr : list nat) (mats : list (list (smat K))) (padded : bool)
  : (list (list (smat K)) * bool) * option exn :=
  match fuel with
  | O => ((mats, padded), None)
  | S fuel' =>
      if existsb (fun n => Nat.ltb n (List.length (rec_lo w))) curr then ((mats, padded), None)
      else
        let '(c, p) := matrix_pad curr in
        let padded' := padded || existsb (fun b => b) p in
        match level_mats_s sep g w method c with
        | Raise e => ((mats, padded'), Some e)
        | Ok l => build_synthesis_n fuel' sep g w method (map (fun n => n / 2) c) (mats ++ [l]) padded'
        end
  end.
(** matmul_transform_2.py:763-781, matmul_transform_3.py:431-449 *)
Definition prepare_rec_n (r : mwaverecn) (s : list nat) (level : nat) (g : tag) : mwaverecn * option exn :=
  let rebuild := negb (same_shape (rn_shape r) s && match rn_level r with Some l => Nat.eqb l level | None => false end) in
  if (match rn_mats r with [] => true | _ => false end) || rebuild then
    let '(b, err) := build_synthesis_n level (rn_sep r) g (rn_wav r) (rn_method r) s [] false in
    (mkMRN (rn_wav r) (rn_axes r) (rn_method r) (rn_sep r) (fst b) (Some level) (Some s) (snd b), err)
  else (r, None).

(** ** MatrixWaverec2.__call__ *)
(** coefficients[-1][0].shape[-2:]; a tensor is indexed along its first axis *)
Definition last2 (s : list nat) : list nat := skipn (List.length s - 2) s.
Definition head_shape (v : pyval K) : result (list nat) :=
  match v with
  | PT t => match shp t with [] | 0 :: _ => Raise IndexError | _ :: s => Ok (last2 s) end
  | PTup (t :: _) => Ok (last2 (shp t))
  | PTup [] => Raise IndexError
  | PDict _ => Raise KeyError
  | POther => Raise TypeError
  end.
(** unpacking a shape into [n] variables *)
Definition unpack (n : nat) (s : list nat) : result (list nat) := if Nat.eqb (List.length s) n then Ok s else Raise ValueError.
(** matmul_transform_2.py:801-829, one level ([s_]: the matrices of this level) *)
Definition mr2_level (sep : bool) (s_ : list (smat K)) (ll lh hl hh : tensor K) : result (tensor K) :=
  if sep then
    match s_ with
    | [row; col] =>
        let* a := cat 2 [ll; lh] in let* d := cat 2 [hl; hh] in let* c := cat 1 [a; d] in
        let* u := batch_mm col (transpose c 1 2) in batch_mm row (transpose u 1 2)
    | _ => Raise ValueError
    end
  else
    match s_ with
    | [m] =>
        let b := nth 0 (shp ll) 0 in
        let* cs := rmap (fun e => reshape_last (transpose e 1 2) [b]) [ll; lh; hl; hh] in
        let* c := cat 1 cs in
        let* u := sp_dense_mm m (tT c) in
        of_cols u b (nth 1 (shp ll) 0 * 2) (nth 2 (shp ll) 0 * 2)
    | _ => Raise ValueError
    end.
(** matmul_transform_2.py:833-840, removal of the padding *)
Definition crop2 (r : tensor K) (pred next : list nat) : tensor K :=
  let r1 := if Nat.eqb (nth 0 pred 0) (nth 0 next 0) then r else slice_dropend r 1 1 in
  if Nat.eqb (nth 1 pred 0) (nth 1 next 0) then r1 else slice_dropend r1 2 1.
Fixpoint mr2_loop (sep : bool) (rmats : list (list (smat K))) (ll : tensor K) (his : list (pyval K)) : result (tensor K) :=
  match his with
  | [] => Ok ll
  | v :: his' =>
      match v with
      | PTup [lh; hl; hh] =>
          if negb (forallb (fun c => list_eqb Nat.eqb (shp c) (shp ll)) [lh; hl; hh]) then Raise ValueError
          else
            match rmats with
            | [] => Raise IndexError
            | s_ :: rmats' =>
                let* r := mr2_level sep s_ ll lh hl hh in
                let pred := map (fun n => n * 2) (last2 (shp ll)) in
                let* r' := (match his' with
                            | [] => Ok r
                            | nxt :: _ => let* nl := head_shape nxt in Ok (crop2 r pred nl)
                            end) in
                mr2_loop sep rmats' r' his'
            end
      | _ => Raise ValueError
      end
  end.
(** matmul_transform_2.py:737-844 __call__ *)
Definition mr2_call (r : mwaverecn) (coeffs : list (pyval K)) : mwaverecn * result (tensor K) :=
  match (let* pc := preprocess_coeffs (mkPC false coeffs) 2 (AxSeq (rn_axes r)) false in
         let* g := check_same_device_dtype (fst pc) in
         let items := pc_items (fst pc) in
         let* hs0 := head_shape (last items POther) in let* hs := unpack 2 hs0 in Ok (items, snd pc, g, hs)) with
  | Raise e => (r, Raise e)
  | Ok (items, ds, g, hs) =>
      let '(r', err) := prepare_rec_n r (map (fun n => n * 2) hs) (List.length items - 1) g in
      match err with
      | Some e => (r', Raise e)
      | None =>
          (r', match items with
               | PT ll :: his => let* y := mr2_loop (rn_sep r') (rev (rn_mats r')) ll his in postprocess_tensor y 2 ds (AxSeq (rn_axes r'))
               | _ => Raise ValueError
               end)
      end
  end.
(** matmul_transform_2.py:640-675 sparse_ifwt_operator *)
Definition sparse_ifwt_operator_2 (r : mwaverecn) : result (smat K) :=
  if rn_sep r then Raise NotImplementedError
  else match rn_mats r with
       | [] => Raise ValueError
       | [[a]] => Ok a
       | l => if rn_padded r then Raise NotImplementedError
              else match rev (List.concat l) with a :: q => fold_ifwt a q | [] => Raise ValueError end
       end.

(** ** MatrixWaverec3.__call__ *)
(** matmul_transform_3.py:391-405 _cat_coeff_recursive: one pass over the keys that start with a *)
Definition str_tl (s : string) : string := match s with EmptyString => EmptyString | String _ r => r end.
Definition starts_a (s : string) : bool := match s with String "a" _ => true | _ => false end.
Definition cat_pair (d : sdict (K := K)) (kv : string * tensor K) : result (tensor K) :=
  match Sep.dict_get d ("d" ++ str_tl (fst kv))%string with
  | None => Raise KeyError
  | Some cd =>
      if Nat.ltb (rank cd) 4 then Raise IndexError
      else
        let* ca := slice_to (snd kv) (nth 0 (shp (snd kv)) 0 :: firstn 3 (tl (shp cd))) in
        if Nat.ltb (rank ca) (String.length (fst kv)) then Raise IndexError
        else cat (rank ca - String.length (fst kv)) [ca; cd]
  end.
Fixpoint cat_pass (d : sdict (K := K)) (entries : sdict (K := K)) (done : sdict (K := K)) : result (tensor K + sdict (K := K)) :=
  match entries with
  | [] => Ok (inr done)
  | kv :: rest =>
      let* c := cat_pair d kv in
      match str_tl (fst kv) with EmptyString => Ok (inl c) | k => cat_pass d rest (dict_set done k c) end
  end.
(** an empty key makes x[0] raise *)
Definition no_empty_key (d : sdict (K := K)) : bool := forallb (fun kv => negb (String.eqb (fst kv) "")) d.
Fixpoint cat_coeff_recursive (fuel : nat) (d : sdict (K := K)) : result (tensor K) :=
  match fuel with
  | O => Raise RecursionError
  | S fuel' =>
      if negb (no_empty_key d) then Raise IndexError
      else
        let* r := cat_pass d (filter (fun kv => starts_a (fst kv)) d) [] in
        match r with inl t => Ok t | inr d' => cat_coeff_recursive fuel' d' end
  end.
(** matmul_transform_3.py:451-472, the loop: the result and the detail dictionaries afterwards.  [fuel] bounds the
    recursion depth of _cat_coeff_recursive (Python's recursion limit). *)
Definition rec_limit : nat := 1000.
Fixpoint mr3_loop (rmats : list (option (list (smat K)))) (lll : tensor K) (his : list (pyval K)) : result (tensor K) * list (pyval K) :=
  match his with
  | [] => (Ok lll, [])
  | v :: his' =>
      match v with
      | PDict d =>
          if negb (Nat.eqb (List.length d) 7) then (Raise ValueError, his)
          else if negb (match d with [] => true | kv :: d' => forallb (fun c => list_eqb Nat.eqb (shp (snd c)) (shp (snd kv))) d' end) then (Raise ValueError, his)
          else
            let d' := dict_set d "aaa" lll in
            match (let* c := cat_coeff_recursive rec_limit d' in
                   match rmats with
                   | Some s_ :: rmats' => let* u := mats_dims (rev s_) c 1 in Ok (u, rmats')
                   | _ => Raise IndexError
                   end) with
            | Raise e => (Raise e, PDict d' :: his')
            | Ok (u, rmats') => let '(r, l) := mr3_loop rmats' u his' in (r, PDict d' :: l)
            end
      | _ => (Raise ValueError, his)
      end
  end.
(** self.ifwt_matrix_list[level - 1 - c_pos] for c_pos = 0, 1, ... *)
Definition from_level {A} (l : list A) (level : nat) : list (option A) := map (fun c => nth_error l (level - 1 - c)) (seq 0 level).
(** matmul_transform_3.py:407-474 __call__: the object, the result, and the caller's coefficients afterwards *)
Definition mr3_call (r : mwaverecn) (coeffs : list (pyval K)) : mwaverecn * result (tensor K) * list (pyval K) :=
  match (let* pc := preprocess_coeffs (mkPC false coeffs) 3 (AxSeq (rn_axes r)) false in
         let* g := check_same_device_dtype (fst pc) in
         let items := pc_items (fst pc) in
         let* hs0 := (match last items POther with
                     | PDict d => match Sep.dict_get d "ddd" with Some t => Ok (skipn (rank t - 3) (shp t)) | None => Raise KeyError end
                     | _ => Raise ValueError end) in let* hs := unpack 3 hs0 in Ok (items, snd pc, g, hs)) with
  | Raise e => (r, Raise e, coeffs)
  | Ok (items, ds, g, hs) =>
      let level := List.length items - 1 in
      let '(r', err) := prepare_rec_n r (map (fun n => n * 2) hs) level g in
      match err with
      | Some e => (r', Raise e, coeffs)
      | None =>
          match items with
          | PT lll :: his =>
              let '(y, his') := mr3_loop (from_level (rn_mats r') level) lll his in
              (r', let* t := y in postprocess_tensor t 3 ds (AxSeq (rn_axes r')),
               if pre_aliases (mkPC false coeffs) 3 (AxSeq (rn_axes r)) then PT lll :: his' else coeffs)
          | _ => (r', Raise ValueError, coeffs)
          end
      end
  end.
End MatN.
Arguments mwavedecn : clear implicits. Arguments mwaverecn : clear implicits.
