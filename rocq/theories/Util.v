(** Model of src/ptwt/_util.py (definitions only). *)
From Coq Require Import List Arith ZArith Lia Bool String.
From Verif Require Import Base Tensor.
Import ListNotations.
Local Open Scope string_scope.

(** A pywt-compatible wavelet: constants.py:38-66 (Wavelet protocol).  Only the four
    filters matter to the code; [len(wavelet)] is the length of dec_lo. *)
Record wavelet (K : CRing) := mkWav { dec_lo : list K; dec_hi : list K; rec_lo : list K; rec_hi : list K }.
Arguments mkWav {K}. Arguments dec_lo {K}. Arguments dec_hi {K}. Arguments rec_lo {K}. Arguments rec_hi {K}.

(** _util.py:31-44 ExtendedPyTorchBoundaryMode / translation_dict *)
Inductive extmode := EPad (m : padmode) | ESymmetric.

(** _util.py:50-68 _translate_boundary_strings *)
Definition translate_boundary (m : option string) : result extmode :=
  match m with
  | None => Ok (EPad PReflect)
  | Some s =>
      if String.eqb s "constant" then Ok (EPad PReplicate)
      else if String.eqb s "zero" then Ok (EPad PConstant)
      else if String.eqb s "reflect" then Ok (EPad PReflect)
      else if String.eqb s "periodic" then Ok (EPad PCircular)
      else if String.eqb s "symmetric" then Ok ESymmetric
      else Raise ValueError
  end.

(** _util.py:47 AxisHint *)
Inductive axishint := AxNone | AxInt (z : Z) | AxSeq (l : list Z).

(** pywt.dwt_max_level(data_len, filter_len) (pywt/_extensions, C common.c dwt_max_level):
    external, modelled from pywt's source. *)
Definition dwt_max_level (n L : nat) : result nat :=
  if Nat.ltb L 2 then Raise ValueError
  else if Nat.ltb n (L - 1) then Ok 0 else Ok (Nat.log2 (n / (L - 1))).

Section Util.
Context {K : CRing}.
Implicit Types t u : tensor K.

(** _util.py:86-91 _get_len *)
Definition get_len (w : wavelet K) : nat := List.length (dec_lo w).

(** _util.py:129-141 _create_tensor: shape [1; L], optionally flipped left-right *)
Definition create_tensor (l : list K) (fl : bool) (g : tag) : tensor K :=
  mkT g [1; List.length l] (if fl then rev l else l).

(** _util.py:95-126 _get_filter_tensors.  The conversion of the filter values to the
    requested dtype is exact in this model (no rounding). *)
Definition get_filter_tensors (w : wavelet K) (fl : bool) (g : tag)
  : tensor K * tensor K * tensor K * tensor K :=
  (create_tensor (dec_lo w) fl g, create_tensor (dec_hi w) fl g,
   create_tensor (rec_lo w) fl g, create_tensor (rec_hi w) fl g).

(** _util.py:150-151 _is_dtype_supported, constants.py:25 SUPPORTED_DTYPES *)
Definition is_dtype_supported (d : dtype) : bool :=
  match d with float32 | float64 => true | _ => false end.

(** _util.py:154-160 _outer *)
Definition outer t u : tensor K :=
  tmake (ttag t) [prodl (shp t); prodl (shp u)]
    (fun idx => kmul (nth (nth 0 idx 0) (dat t) kzero) (nth (nth 1 idx 0) (dat u) kzero)).

(** _util.py:163-180 _pad_symmetric_1d.  [fuel] bounds the Python recursion; running out
    (only possible for an empty axis, see C09) is RecursionError. *)
Fixpoint pad_symmetric_1d (fuel : nat) (signal : tensor K) (padl padr : nat) : result (tensor K) :=
  match fuel with
  | O => Raise RecursionError
  | S fuel' =>
    let dimlen := nth 0 (shp signal) 0 in
    if Nat.ltb dimlen padl || Nat.ltb dimlen padr then
      let* sp := (if Nat.ltb dimlen padl
                  then let* s := pad_symmetric_1d fuel' signal dimlen 0 in Ok (s, padl - dimlen)
                  else Ok (signal, padl)) in
      let '(signal1, padl1) := sp in
      let* sp2 := (if Nat.ltb dimlen padr
                   then let* s := pad_symmetric_1d fuel' signal1 0 dimlen in Ok (s, padr - dimlen)
                   else Ok (signal1, padr)) in
      let '(signal2, padr1) := sp2 in
      pad_symmetric_1d fuel' signal2 padl1 padr1
    else
      let left := if Nat.ltb 0 padl then [flip (narrow signal 0 0 padl) 0] else [] in
      let right := if Nat.ltb 0 padr then [flip (narrow signal 0 (dimlen - padr) padr) 0] else [] in
      cat 0 (left ++ [signal] ++ right)
  end.

(** _util.py:183-195 _pad_symmetric: pads the last axes; pad_lists in axis order *)
Fixpoint pad_symmetric_loop (signal : tensor K) (dims pos : nat) (pads_rev : list (nat * nat))
  : result (tensor K) :=
  match pads_rev with
  | [] => Ok signal
  | (pl, pr) :: rest =>
      let cur := dims - pos in
      let* s := pad_symmetric_1d (S (S (pl + pr))) (transpose signal 0 cur) pl pr in
      pad_symmetric_loop (transpose s cur 0) dims (S pos) rest
  end.
Definition pad_symmetric t (pads : list (nat * nat)) : result (tensor K) :=
  if Nat.ltb (rank t) (List.length pads) then Raise ValueError
  else pad_symmetric_loop t (rank t - 1) 0 (rev pads).

(** _util.py:198-228 _get_pad: (padl, padr).  Filter length >= 2 assumed (for length 1 the
    Python value would be -1; pywt has no such wavelet). *)
Definition get_pad (data_len filt_len : nat) : nat * nat :=
  ((2 * filt_len - 3) / 2, (2 * filt_len - 3) / 2 + data_len mod 2).

(** _util.py:231-244 _adjust_padding_at_reconstruction: returns (pad_end, pad_start) *)
Definition adjust_padding (res_size coeff_size pad_end pad_start : nat) : result (nat * nat) :=
  let pred := (Z.of_nat res_size - (Z.of_nat pad_start + Z.of_nat pad_end))%Z in
  let next := Z.of_nat coeff_size in
  if (next =? pred)%Z then Ok (pad_end, pad_start)
  else if (next =? pred - 1)%Z then Ok (pad_end + 1, pad_start)
  else Raise AssertionError.

(** _util.py:271-291 _fold_axes / _unfold_axes *)
Definition fold_axes t (keep : nat) : result (tensor K * list nat) :=
  let ds := shp t in
  let k := List.length ds - keep in
  let* r := reshape t (prodl (firstn k ds) :: skipn k ds) in Ok (r, ds).
Definition unfold_axes t (ds : list nat) (keep : nat) : result (tensor K) :=
  reshape t (firstn (List.length ds - keep) ds ++ skipn (rank t - keep) (shp t)).

(** Python values that may sit in a coefficient container (constants.py:176-253). *)
Inductive pyval :=
| PT (t : tensor K)
| PTup (l : list (tensor K))
| PDict (d : list (string * tensor K))
| POther.
Record pycoeffs := mkPC { pc_is_list : bool; pc_items : list pyval }.

(** _util.py:294-299 _check_if_tensor *)
Definition check_if_tensor (v : pyval) : result (tensor K) :=
  match v with PT t => Ok t | _ => Raise ValueError end.

(** _util.py:302-304 _check_axes_argument *)
Fixpoint nodupz (l : list Z) : bool :=
  match l with [] => true | a :: l' => negb (existsb (Z.eqb a) l') && nodupz l' end.
Definition check_axes_argument (axes : list Z) : result unit :=
  if nodupz axes then Ok tt else Raise ValueError.

(** _util.py:394-450 _coeff_tree_map *)
Definition map_dict (f : tensor K -> result (tensor K)) (d : list (string * tensor K)) :=
  rmap (fun kv => let* v := f (snd kv) in Ok (fst kv, v)) d.
Definition map_element (f : tensor K -> result (tensor K)) (v : pyval) : result pyval :=
  match v with
  | PTup (a :: b :: c :: _) =>
      let* a' := f a in let* b' := f b in let* c' := f c in Ok (PTup [a'; b'; c'])
  | PTup (a :: b :: []) => let* a' := f a in let* b' := f b in Raise IndexError
  | PTup (a :: []) => let* a' := f a in Raise IndexError
  | PTup [] => Raise IndexError
  | PDict d => let* d' := map_dict f d in Ok (PDict d')
  | PT t => let* t' := f t in Ok (PT t')
  | POther => Raise ValueError
  end.
Definition coeff_tree_map (c : pycoeffs) (f : tensor K -> result (tensor K)) : result pycoeffs :=
  match pc_items c with
  | [] => Raise IndexError
  | a0 :: rest =>
      match a0 with
      | PT t =>
          let* a := f t in
          let* res := rmap (map_element f) rest in
          match res with
          | [] => Ok (mkPC (pc_is_list c) [PT a])
          | PT _ :: _ => Ok (mkPC true (PT a :: res))
          | _ => Ok (mkPC false (PT a :: res))
          end
      | _ => Raise AttributeError
      end
  end.

(** _util.py:307-348 _check_same_device / _check_same_dtype / _check_same_device_dtype *)
Definition check_same_device (d : device) t : result (tensor K) :=
  if device_eqb d (tdevice t) then Ok t else Raise ValueError.
Definition check_same_dtype (d : dtype) t : result (tensor K) :=
  if dtype_eqb d (tdtype t) then Ok t else Raise ValueError.
Definition check_same_device_dtype (c : pycoeffs) : result tag :=
  match pc_items c with
  | [] => Raise IndexError
  | v :: _ =>
      let* t := check_if_tensor v in
      let* _ := coeff_tree_map c (check_same_device (tdevice t)) in
      let* _ := coeff_tree_map c (check_same_dtype (tdtype t)) in
      Ok (ttag t)
  end.

(** _util.py:351-357 _get_transpose_order *)
Definition get_transpose_order (axes : list Z) (n : nat) : list Z * list Z :=
  let ax := map (fun a => if (a <? 0)%Z then (a + Z.of_nat n)%Z else a) axes in
  (filter (fun a => negb (existsb (Z.eqb a) ax)) (map Z.of_nat (seq 0 n)), ax).

(** torch.argsort of a vector of ints; on a permutation there are no ties.
    Position i of the result is the index of the i-th smallest entry. *)
Fixpoint insert_by (kv : Z * nat) (l : list (Z * nat)) : list (Z * nat) :=
  match l with
  | [] => [kv]
  | h :: r => if (fst kv <=? fst h)%Z then kv :: l else h :: insert_by kv r
  end.
Definition argsort (l : list Z) : list nat :=
  map snd (fold_right insert_by [] (combine l (seq 0 (List.length l)))).

(** _util.py:360-370 _swap_axes / _undo_swap_axes *)
Definition swap_axes (axes : list Z) t : result (tensor K) :=
  let* _ := check_axes_argument axes in
  let '(front, back) := get_transpose_order axes (rank t) in
  torch_permute t (front ++ back)%list.
Definition undo_swap_axes (axes : list Z) t : result (tensor K) :=
  let* _ := check_axes_argument axes in
  let '(front, back) := get_transpose_order axes (rank t) in
  torch_permute t (map Z.of_nat (argsort (front ++ back)%list)).

(** _util.py:830-852 _get_default_axes *)
Definition get_default_axes (n : nat) : result (list Z) :=
  if Nat.ltb n 1 then Raise ValueError
  else Ok (map (fun i => (Z.of_nat i - Z.of_nat n)%Z) (seq 0 n)).

(** _util.py:817-827 _ensure_axes *)
Definition ensure_axes (axes : axishint) (dim : nat) : result (list Z) :=
  match axes with
  | AxNone => get_default_axes dim
  | AxInt a => if Nat.eqb dim 1 then Ok [a] else Raise ValueError
  | AxSeq l =>
      if Nat.eqb (List.length l) dim then let* _ := check_axes_argument l in Ok l
      else Raise ValueError
  end.

(** _util.py:493-570 _preprocess_coeffs *)
Definition fold_batch (ndim : nat) t : result (tensor K) :=
  let* r := fold_axes t ndim in Ok (fst r).
Definition preprocess_coeffs (c : pycoeffs) (ndim : nat) (axes : axishint) (add_channel : bool)
  : result (pycoeffs * list nat) :=
  if Nat.leb ndim 0 then Raise ValueError
  else match pc_items c with
  | [] => Raise IndexError
  | v :: _ =>
    let* t0 := check_if_tensor v in
    if negb (is_dtype_supported (tdtype t0)) then Raise ValueError
    else
      let* ax := ensure_axes axes ndim in
      let* dax := get_default_axes ndim in
      let* c1 := (if list_eqb Z.eqb ax dax then Ok c else coeff_tree_map c (swap_axes ax)) in
      match pc_items c1 with
      | PT t1 :: _ =>
        let ds := shp t1 in
        let* c2 :=
          (if Nat.ltb (List.length ds) ndim then Raise ValueError
           else if Nat.eqb (List.length ds) ndim then coeff_tree_map c1 (fun x => Ok (unsqueeze x 0))
           else if Nat.ltb (ndim + 1) (List.length ds) then coeff_tree_map c1 (fold_batch ndim)
           else Ok c1) in
        let* c3 := (if add_channel then coeff_tree_map c2 (fun x => Ok (unsqueeze x 1)) else Ok c2) in
        Ok (c3, ds)
      | _ => Raise AttributeError
      end
  end.

(** _util.py:613-676 _postprocess_coeffs *)
Definition postprocess_coeffs (c : pycoeffs) (ndim : nat) (ds : list nat) (axes : axishint)
  : result pycoeffs :=
  if Nat.leb ndim 0 then Raise ValueError
  else
    let* ax := ensure_axes axes ndim in
    let* c1 :=
      (if Nat.ltb (List.length ds) ndim then Raise ValueError
       else if Nat.eqb (List.length ds) ndim then coeff_tree_map c (fun x => Ok (squeeze x 0))
       else if Nat.ltb (ndim + 1) (List.length ds)
            then coeff_tree_map c (fun x => unfold_axes x ds ndim)
       else Ok c) in
    let* dax := get_default_axes ndim in
    if list_eqb Z.eqb ax dax then Ok c1 else coeff_tree_map c1 (undo_swap_axes ax).

Definition pc_first (c : pycoeffs) : result (tensor K) :=
  match pc_items c with PT t :: _ => Ok t | _ => Raise AttributeError end.

(** _util.py:679-714 _preprocess_tensor *)
Definition preprocess_tensor t (ndim : nat) (axes : axishint) (add_channel : bool)
  : result (tensor K * list nat) :=
  let* r := preprocess_coeffs (mkPC true [PT t]) ndim axes add_channel in
  let* d := pc_first (fst r) in Ok (d, snd r).

(** _util.py:717-743 _postprocess_tensor *)
Definition postprocess_tensor t (ndim : nat) (ds : list nat) (axes : axishint) : result (tensor K) :=
  let* r := postprocess_coeffs (mkPC true [PT t]) ndim ds axes in pc_first r.

(** _util.py:807-814 _get_padding_n: pairs (padl, padr), last axis first *)
Definition get_padding_n t (w : wavelet K) (n : nat) : list (nat * nat) :=
  map (fun i => get_pad (dim_last t (S i)) (get_len w)) (seq 0 n).
(** _util.py:802-804 _group_for_symmetric (the flat tuple is kept as pairs) *)
Definition group_for_symmetric (p : list (nat * nat)) : list (nat * nat) := rev p.

(** _util.py:881-937 _construct_1d_filt, _construct_2d_filt, _construct_3d_filt *)
Definition construct_1d_filt (lo hi : tensor K) : result (tensor K) := stack 0 [lo; hi].
Definition construct_2d_filt (lo hi : tensor K) : result (tensor K) :=
  let ll := outer lo lo in let lh := outer hi lo in
  let hl := outer lo hi in let hh := outer hi hi in
  let* f := stack 0 [ll; lh; hl; hh] in Ok (unsqueeze f 1).
Definition construct_3d_filt (lo hi : tensor K) : result (tensor K) :=
  let d := dim_last lo 1 in
  let o a b c := reshape (outer a (outer b c)) [d; d; d] in
  let* lll := o lo lo lo in let* llh := o lo lo hi in
  let* lhl := o lo hi lo in let* lhh := o lo hi hi in
  let* hll := o hi lo lo in let* hlh := o hi lo hi in
  let* hhl := o hi hi lo in let* hhh := o hi hi hi in
  let* f := stack 0 [lll; llh; lhl; lhh; hll; hlh; hhl; hhh] in Ok (unsqueeze f 1).
(** _util.py:870-879 _construct_nd_filt *)
Definition construct_nd_filt (lo hi : tensor K) (n : nat) : result (tensor K) :=
  match n with
  | 1 => construct_1d_filt lo hi | 2 => construct_2d_filt lo hi | 3 => construct_3d_filt lo hi
  | _ => Raise NotImplementedError
  end.

(** _util.py:855-867 _preprocess_deconstruction: (data, ds, dec_lo, dec_hi, dec_filt) *)
Definition preprocess_deconstruction t (w : wavelet K) (ndim : nat) (axes : axishint)
  : result (tensor K * list nat * tensor K * tensor K * tensor K) :=
  let* r := preprocess_tensor t ndim axes true in
  let '(data, ds) := r in
  let '(dlo, dhi, _, _) := get_filter_tensors w true (ttag data) in
  let* f := construct_nd_filt dlo dhi ndim in
  Ok (data, ds, dlo, dhi, f).

(** _util.py:247-268 _flatten_2d_coeff_lst *)
Definition flatten_tensor t : tensor K := mkT (ttag t) [prodl (shp t)] (dat t).
Definition flatten_2d_coeff_lst (approx : tensor K) (details : list (list (tensor K))) (fl : bool)
  : list (tensor K) :=
  let p := fun t => if fl then flatten_tensor t else t in
  p approx :: flat_map (map p) details.

End Util.
Arguments pyval : clear implicits. Arguments pycoeffs : clear implicits.
Arguments mkPC {K}. Arguments pc_is_list {K}. Arguments pc_items {K}.
Arguments PT {K}. Arguments PTup {K}. Arguments PDict {K}. Arguments POther {K}.

(** _util.py:750-799 _deprecated_alias: keyword dictionaries as association lists (insertion
    order), the wrapped function abstract.  [rename_kwargs] is the inner loop. *)
Section Alias.
Context {V R : Type}.
Definition kwargs := list (string * V).
Definition kw_mem (k : string) (d : kwargs) : bool := existsb (fun kv => String.eqb (fst kv) k) d.
Fixpoint kw_pop (k : string) (d : kwargs) : option (V * kwargs) :=
  match d with
  | [] => None
  | kv :: r => if String.eqb (fst kv) k then Some (snd kv, r)
               else match kw_pop k r with Some (v, r') => Some (v, kv :: r') | None => None end
  end.
Fixpoint rename_kwargs (aliases : list (string * string)) (d : kwargs) (warned : list string)
  : result (kwargs * list string) :=
  match aliases with
  | [] => Ok (d, warned)
  | (alias, new) :: rest =>
      match kw_pop alias d with
      | None => rename_kwargs rest d warned
      | Some (v, d') =>
          if kw_mem new d then Raise TypeError
          else rename_kwargs rest (d' ++ [(new, v)])%list (warned ++ [alias])%list
      end
  end.
(** the wrapper: deprecation warnings issued and the call's outcome *)
Definition deprecated_alias (aliases : list (string * string)) {A} (f : A -> kwargs -> result R)
  (args : A) (kw : kwargs) : list string * result R :=
  match rename_kwargs aliases kw [] with
  | Ok (kw', ws) => (ws, f args kw')
  | Raise e => ([], Raise e)
  end.
End Alias.
