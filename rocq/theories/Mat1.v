(** Model of src/ptwt/matmul_transform.py (definitions only).

    The two classes are state machines: a call takes the object and returns the object it leaves behind together
    with the result, so that caching (and what an exception leaves in the object) can be reasoned about.
    Not modelled: the warning written to stderr. *)
From Coq Require Import List Arith ZArith Lia Bool String.
From Verif Require Import Base Tensor Util Conv1 Sparse.
Import ListNotations.

Section Mat1.
Context {K : CRing}.
Variable LA : linalg K.
Implicit Types (m : smat K) (t : tensor K) (w : wavelet K).

(** tensor.T of a 2d tensor *)
Definition tT t : tensor K := transpose t 0 1.
(** the filter after squeeze(): a single tap becomes 0-dimensional, on which len() raises *)
Definition squeezed (l : list K) : result (list K) := match l with [_] => Raise TypeError | _ => Ok l end.

(** matmul_transform.py:47-81 _construct_a *)
Definition construct_a (g : tag) w (n : nat) (mode : string) : result (smat K) :=
  let* lo := squeezed (dec_lo w) in let* hi := squeezed (dec_hi w) in
  let* a := construct_strided_conv_matrix g lo n 2 mode in
  let* d := construct_strided_conv_matrix g hi n 2 mode in
  sp_cat a d.
(** matmul_transform.py:84-118 _construct_s: the flipped reconstruction filters, transposed *)
Definition construct_s (g : tag) w (n : nat) (mode : string) : result (smat K) :=
  let* lo := squeezed (rev (rec_lo w)) in let* hi := squeezed (rev (rec_hi w)) in
  let* a := construct_strided_conv_matrix g lo n 2 mode in
  let* d := construct_strided_conv_matrix g hi n 2 mode in
  let* s := sp_cat a d in Ok (sp_t s).
(** matmul_transform.py:121-136 _get_to_orthogonalize: the rows with a number of stored entries that is neither
    0 nor filt_len (unique_consecutive of the sorted row indices lists only non-empty rows) *)
Definition row_count m (i : nat) : nat := List.length (filter (fun e => Nat.eqb (fst (fst e)) i) (s_ent (coalesce m))).
Definition get_to_orthogonalize m (filt_len : nat) : list nat :=
  filter (fun i => negb (Nat.eqb (row_count m i) 0) && negb (Nat.eqb (row_count m i) filt_len)) (seq 0 (s_rows m)).
(** matmul_transform.py:139-165 orthogonalize *)
Definition orthogonalize m (filt_len : nat) (method : string) : result (smat K) :=
  match get_to_orthogonalize m filt_len with
  | [] => Ok m
  | l => if String.eqb method "qr" then orth_by_qr LA m l
         else if String.eqb method "gramschmidt" then orth_by_gram_schmidt LA m l
         else Raise ValueError
  end.
(** matmul_transform.py:433-462 construct_boundary_a, :465-497 construct_boundary_s *)
Definition construct_boundary_a (g : tag) w (n : nat) (method : string) : result (smat K) :=
  let* a := construct_a g w n "sameshift" in orthogonalize a (List.length (dec_lo w)) method.
Definition construct_boundary_s (g : tag) w (n : nat) (method : string) : result (smat K) :=
  let* s := construct_s g w n "sameshift" in
  let* o := orthogonalize (sp_t s) (List.length (rec_lo w)) method in Ok (sp_t o).

(** _util.py:144-147 _is_orthogonalize_method_supported *)
Definition orth_supported (method : string) : bool := String.eqb method "qr" || String.eqb method "gramschmidt".

(** ** MatrixWavedec *)
Record mwavedec := mkMW { mw_wav : wavelet K; mw_level : option Z; mw_axis : Z; mw_method : string; mw_odd : option string;
  mw_len : option nat; mw_mats : list (smat K); mw_pads : list bool; mw_padded : bool; mw_sizes : list nat }.
(** matmul_transform.py:211-266 __init__; self.axis = _ensure_axes(axis, 1)[0] *)
Definition new_mwavedec w (level : option Z) (axis : axishint) (method : string) (odd : option string) : result mwavedec :=
  let* ax := ensure_axes axis 1 in
  if negb (orth_supported method) then Raise NotImplementedError
  else if negb (Nat.eqb (List.length (dec_lo w)) (List.length (rec_lo w))) then Raise ValueError
  else Ok (mkMW w level (nth 0 ax 0%Z) method odd None [] [] false []).

(** matmul_transform.py:310-354 _construct_analysis_matrices: the loop.  The lists grow by one entry per level; an
    exception leaves what has been appended so far (the pad and size entries are appended before the matrix). *)
Fixpoint build_analysis (fuel : nat) (g : tag) w (method : string) (curr : nat) (mats : list (smat K)) (pads : list bool) (padded : bool) (sizes : list nat)
  : (list (smat K) * list bool * bool * list nat) * option exn :=
  match fuel with
  | O => ((mats, pads, padded, sizes ++ [curr]), None)
  | S fuel' =>
      if Nat.ltb curr (List.length (dec_lo w)) then ((mats, pads, padded, sizes ++ [curr]), None)
      else
        let odd := negb (Nat.eqb (curr mod 2) 0) in
        let c := if odd then S curr else curr in
        match construct_boundary_a g w c method with
        | Raise e => ((mats, pads ++ [odd], padded || odd, sizes ++ [c]), Some e)
        | Ok a => build_analysis fuel' g w method (c / 2) (mats ++ [a]) (pads ++ [odd]) (padded || odd) (sizes ++ [c])
        end
  end.
(** int(np.log2(length / (wlen - 1))), rounded towards zero, computed exactly; np.log2(0) is -inf, int of which
    raises.  Filter length >= 2. *)
Definition mat_level (L n : nat) : result Z :=
  if Nat.eqb n 0 then Raise OverflowError
  else if Nat.leb (L - 1) n then Ok (Z.of_nat (Nat.log2 (n / (L - 1)))) else Ok (- Z.of_nat (Nat.log2 ((L - 1) / n)))%Z.

Definition with_mats (o : mwavedec) (len : nat) (lev : option Z) (b : list (smat K) * list bool * bool * list nat) : mwavedec :=
  let '(ms, ps, pd, sz) := b in mkMW (mw_wav o) lev (mw_axis o) (mw_method o) (mw_odd o) (Some len) ms ps pd sz.
Definition with_level (o : mwavedec) (len : nat) (lev : option Z) : mwavedec :=
  mkMW (mw_wav o) lev (mw_axis o) (mw_method o) (mw_odd o) (Some len) (mw_mats o) (mw_pads o) (mw_padded o) (mw_sizes o).

(** torch.split(coefficients, rows // 2, dim=0), unpacked into two *)
Definition split_half t : result (tensor K * tensor K) :=
  let r := nth 0 (shp t) 0 in let h := r / 2 in
  if Nat.eqb h 0 then Raise RuntimeError
  else if negb (Nat.eqb r (2 * h)) then Raise ValueError
  else Ok (narrow t 0 0 h, narrow t 0 h h).
(** matmul_transform.py:409-425, the loop of __call__; lo is transposed: [length, batch] *)
Fixpoint mw_loop w (odd : option string) (mats : list (smat K)) (pads : list bool) (lo : tensor K) (acc : list (tensor K))
  : result (list (tensor K)) :=
  match mats with
  | [] => Ok (acc ++ [lo])
  | a :: mats' =>
      match pads with
      | [] => Raise IndexError
      | p :: pads' =>
          let* lo1 := (if p then let* q := fwt_pad (unsqueeze (tT lo) 1) w odd (Some (0, 1)) in Ok (tT (squeeze q 1)) else Ok lo) in
          let* c := sp_dense_mm a lo1 in
          let* lh := split_half c in
          mw_loop w odd mats' pads' (fst lh) (acc ++ [snd lh])
      end
  end.
(** matmul_transform.py:356-430 __call__ *)
Definition mw_call (o : mwavedec) (x : tensor K) : mwavedec * result (pycoeffs K) :=
  match preprocess_tensor x 1 (AxInt (mw_axis o)) false with
  | Raise e => (o, Raise e)
  | Ok (t0, ds) =>
    match (if Nat.eqb (dim_last t0 1 mod 2) 0 then Ok t0 else fwt_pad t0 (mw_wav o) (mw_odd o) (Some (0, 1))) with
    | Raise e => (o, Raise e)
    | Ok t =>
      let len := dim_last t 1 in
      let rebuild := negb (match mw_len o with Some l => Nat.eqb l len | None => false end) in
      match (match mw_level o with
             | None => let* l := mat_level (get_len (mw_wav o)) len in Ok (l, true)
             | Some l => if (l <=? 0)%Z then Raise ValueError else Ok (l, rebuild) end) with
      | Raise e => (with_level o len (mw_level o), Raise e)
      | Ok (lev, rb) =>
        let o1 := with_level o len (Some lev) in
        let '(o2, err) :=
          (if (match mw_mats o1 with [] => true | _ => false end) || rb then
             let '(b, err) := build_analysis (Z.to_nat lev) (ttag t) (mw_wav o) (mw_method o) len [] [] false [] in
             (with_mats o1 len (Some lev) b, err)
           else (o1, None)) in
        match err with
        | Some e => (o2, Raise e)
        | None =>
            (o2, let* cs := mw_loop (mw_wav o2) (mw_odd o2) (mw_mats o2) (mw_pads o2) (tT t) [] in
                 postprocess_coeffs (mkPC true (map PT (map tT (rev cs)))) 1 ds (AxInt (mw_axis o2)))
        end
      end
    end
  end.
(** matmul_transform.py:267-308 sparse_fwt_operator *)
Fixpoint fold_fwt (m : smat K) (l : list (smat K)) : result (smat K) :=
  match l with
  | [] => Ok m
  | s :: l' => let* e := cat_sparse_identity_matrix s (s_rows m) in let* p := sp_mm e m in fold_fwt p l'
  end.
Definition sparse_fwt_operator (o : mwavedec) : result (smat K) :=
  match mw_mats o with
  | [] => Raise ValueError
  | [a] => Ok a
  | a :: r => if mw_padded o then Raise NotImplementedError else fold_fwt a r
  end.

(** ** MatrixWaverec *)
Record mwaverec := mkMR { mr_wav : wavelet K; mr_axes : list Z; mr_method : string; mr_mats : list (smat K);
  mr_level : option nat; mr_len : option nat; mr_padded : bool; mr_sizes : list nat }.
(** matmul_transform.py:515-557 __init__; self.axis keeps the list *)
Definition new_mwaverec w (axis : axishint) (method : string) : result mwaverec :=
  let* ax := ensure_axes axis 1 in
  if negb (orth_supported method) then Raise NotImplementedError
  else if negb (Nat.eqb (List.length (dec_lo w)) (List.length (rec_lo w))) then Raise ValueError
  else Ok (mkMR w ax method [] None None false []).
(** matmul_transform.py:603-642 _construct_synthesis_matrices *)
Fixpoint build_synthesis (fuel : nat) (g : tag) w (method : string) (curr : nat) (mats : list (smat K)) (padded : bool) (sizes : list nat)
  : (list (smat K) * bool * list nat) * option exn :=
  match fuel with
  | O => ((mats, padded, sizes), None)
  | S fuel' =>
      if Nat.ltb curr (List.length (rec_lo w)) then ((mats, padded, sizes), None)
      else
        let odd := negb (Nat.eqb (curr mod 2) 0) in
        let c := if odd then S curr else curr in
        match construct_boundary_s g w c method with
        | Raise e => ((mats, padded || odd, sizes ++ [c]), Some e)
        | Ok s => build_synthesis fuel' g w method (c / 2) (mats ++ [s]) (padded || odd) (sizes ++ [c])
        end
  end.
(** matmul_transform.py:679-701, the loop of __call__: [rmats] is the reversed matrix list from position c_pos on,
    [his] the transposed details from c_pos on *)
Fixpoint mr_loop (rmats : list (smat K)) (lo : tensor K) (his : list (tensor K)) : result (tensor K) :=
  match his with
  | [] => Ok lo
  | hi :: his' =>
      if negb (eqidx (shp lo) (shp hi)) then Raise ValueError
      else
        let* c := cat 0 [lo; hi] in
        match rmats with
        | [] => Raise IndexError
        | s :: rmats' =>
            let* r := sp_dense_mm s c in
            let* r' := (match his' with
                        | [] => Ok r
                        | nxt :: _ =>
                            if Nat.eqb (nth 0 (shp nxt) 0) (nth 0 (shp r) 0) then Ok r
                            else let q := slice_dropend r 0 1 in
                                 if Nat.eqb (nth 0 (shp q) 0) (nth 0 (shp nxt) 0) then Ok q else Raise AssertionError
                        end) in
            mr_loop rmats' r' his'
        end
  end.
(** matmul_transform.py:644-703 __call__.  _check_same_device_dtype rejects non-tensors, so the elements are
    tensors afterwards. *)
Definition mr_call (r : mwaverec) (coeffs : list (pyval K)) : mwaverec * result (tensor K) :=
  match (let* pc := preprocess_coeffs (mkPC true coeffs) 1 (AxSeq (mr_axes r)) false in
         let* g := check_same_device_dtype (fst pc) in
         let* ts := rmap as_tensor (pc_items (fst pc)) in Ok (ts, snd pc, g)) with
  | Raise e => (r, Raise e)
  | Ok (ts, ds, g) =>
      let level := List.length ts - 1 in
      let len := match rev ts with t :: _ => dim_last t 1 * 2 | [] => 0 end in
      let rebuild := negb (match mr_level r with Some l => Nat.eqb l level | None => false end && match mr_len r with Some l => Nat.eqb l len | None => false end) in
      let '(r2, err) :=
        (if (match mr_mats r with [] => true | _ => false end) || rebuild then
           let '(b, err) := build_synthesis level g (mr_wav r) (mr_method r) len [] false [] in
           let '(ms, pd, sz) := b in
           (mkMR (mr_wav r) (mr_axes r) (mr_method r) ms (Some level) (Some len) pd sz, err)
         else (r, None)) in
      match err with
      | Some e => (r2, Raise e)
      | None =>
          (r2, match map tT ts with
               | [] => Raise IndexError
               | lo :: his =>
                   let* res := mr_loop (rev (mr_mats r2)) lo his in
                   postprocess_tensor (tT res) 1 ds (AxSeq (mr_axes r2))
               end)
      end
  end.
(** matmul_transform.py:559-601 sparse_ifwt_operator *)
Fixpoint fold_ifwt (m : smat K) (l : list (smat K)) : result (smat K) :=
  match l with
  | [] => Ok m
  | s :: l' => let* e := cat_sparse_identity_matrix m (s_rows s) in let* p := sp_mm s e in fold_ifwt p l'
  end.
Definition sparse_ifwt_operator (r : mwaverec) : result (smat K) :=
  match mr_mats r with
  | [] => Raise ValueError
  | [a] => Ok a
  | l => if mr_padded r then Raise NotImplementedError
         else match rev l with a :: rest => fold_ifwt a rest | [] => Raise ValueError end
  end.
End Mat1.
Arguments mwavedec K : clear implicits. Arguments mwaverec K : clear implicits.
