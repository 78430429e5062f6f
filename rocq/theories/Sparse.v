(** Model of src/ptwt/sparse_math.py (definitions only).

    A sparse matrix is a dtype/device tag, a size and a list of (row, column, value) entries; as in
    torch's COO layout entries may repeat (an uncoalesced matrix) and may be explicit zeros.  The value
    of the matrix at (i, j) is the sum of the entries stored there.
    The torch primitives on sparse matrices (first section) are modelled from the torch documentation and
    belong to the trusted base. *)
From Coq Require Import List Arith ZArith Lia Bool String.
From Verif Require Import Base Tensor.
Import ListNotations.

Record smat (K : CRing) := mkS { s_tag : tag; s_rows : nat; s_cols : nat; s_ent : list (nat * nat * K) }.
Arguments mkS {K}. Arguments s_tag {K}. Arguments s_rows {K}. Arguments s_cols {K}. Arguments s_ent {K}.

Section SparsePrims.
Context {K : CRing}.
Implicit Types (m : smat K) (t : tensor K).

Definition at_pos (i j : nat) (e : nat * nat * K) : bool := Nat.eqb (fst (fst e)) i && Nat.eqb (snd (fst e)) j.
(** the value at (i, j): duplicate entries are added up *)
Definition ent_get (l : list (nat * nat * K)) (i j : nat) : K := sumL l (fun e => if at_pos i j e then snd e else kzero).
Definition mget m (i j : nat) : K := ent_get (s_ent m) i j.
Definition in_size (r c : nat) (e : nat * nat * K) : bool := Nat.ltb (fst (fst e)) r && Nat.ltb (snd (fst e)) c.
Definition s_wf m : Prop := Forall (fun e => in_size (s_rows m) (s_cols m) e = true) (s_ent m).

(** torch.sparse_coo_tensor with an explicit size: indices outside the size are rejected *)
Definition sp_make (g : tag) (r c : nat) (l : list (nat * nat * K)) : result (smat K) :=
  if forallb (in_size r c) l then Ok (mkS g r c l) else Raise RuntimeError.
(** the same without a size: the smallest size that fits *)
Definition max1 (l : list nat) : nat := fold_right (fun i a => Nat.max (S i) a) 0 l.
Definition sp_infer (g : tag) (l : list (nat * nat * K)) : smat K :=
  mkS g (max1 (map (fun e => fst (fst e)) l)) (max1 (map (fun e => snd (fst e)) l)) l.

(** the index pairs that are stored, sorted, without repetition; then coalesce() *)
Definition stored (l : list (nat * nat * K)) (r c : nat) : list (nat * nat) :=
  flat_map (fun i => flat_map (fun j => if existsb (at_pos i j) l then [(i, j)] else []) (seq 0 c)) (seq 0 r).
Definition coalesce m : smat K :=
  mkS (s_tag m) (s_rows m) (s_cols m) (map (fun p => (fst p, snd p, mget m (fst p) (snd p))) (stored (s_ent m) (s_rows m) (s_cols m))).

(** m.transpose(0, 1), a + b, scalar * a *)
Definition sp_t m : smat K := mkS (s_tag m) (s_cols m) (s_rows m) (map (fun e => (snd (fst e), fst (fst e), snd e)) (s_ent m)).
Definition same_size m m' : bool := Nat.eqb (s_rows m) (s_rows m') && Nat.eqb (s_cols m) (s_cols m').
Definition sp_add m m' : result (smat K) :=
  if same_size m m' then Ok (mkS (s_tag m) (s_rows m) (s_cols m) (s_ent m ++ s_ent m')) else Raise RuntimeError.
Definition sp_map (f : K -> K) m : smat K := mkS (s_tag m) (s_rows m) (s_cols m) (map (fun e => (fst e, f (snd e))) (s_ent m)).
Definition sp_scale (a : K) m : smat K := sp_map (kmul a) m.
(** torch.cat([a, b], 0) *)
Definition sp_cat m m' : result (smat K) :=
  if Nat.eqb (s_cols m) (s_cols m') then
    Ok (mkS (s_tag m) (s_rows m + s_rows m') (s_cols m)
      (s_ent m ++ map (fun e => (fst (fst e) + s_rows m, snd (fst e), snd e)) (s_ent m')))
  else Raise RuntimeError.
(** m.select(0, i).unsqueeze(0) *)
Definition sp_row m (i : nat) : smat K :=
  mkS (s_tag m) 1 (s_cols m) (flat_map (fun e => if Nat.eqb (fst (fst e)) i then [(0, snd (fst e), snd e)] else []) (s_ent m)).
Definition tag_eqb (g g' : tag) : bool := dtype_eqb (fst g) (fst g') && device_eqb (snd g) (snd g').
(** torch.sparse.mm(sparse, sparse): the stored positions are those of the structural product *)
Definition sp_mm m m' : result (smat K) :=
  if tag_eqb (s_tag m) (s_tag m') && Nat.eqb (s_cols m) (s_rows m') then
    Ok (coalesce (mkS (s_tag m) (s_rows m) (s_cols m')
      (flat_map (fun e => flat_map (fun e' => if Nat.eqb (snd (fst e)) (fst (fst e'))
          then [(fst (fst e), snd (fst e'), kmul (snd e) (snd e'))] else []) (s_ent m')) (s_ent m))))
  else Raise RuntimeError.
(** torch.sparse.mm(sparse, dense) and sparse.mm(dense) with a 2d dense operand *)
Definition sp_dense_mm m t : result (tensor K) :=
  match shp t with
  | [n; p] =>
      if tag_eqb (s_tag m) (ttag t) && Nat.eqb (s_cols m) n then
        Ok (tmake (ttag t) [s_rows m; p] (fun idx => match idx with
              | [i; j] => sumf n (fun k => kmul (mget m i k) (get t [k; j])) | _ => kzero end))
      else Raise RuntimeError
  | _ => Raise RuntimeError
  end.
(** m.to_dense(), and to_sparse() of a dense 2d tensor (zeros are kept here; only values matter to the
    callers) *)
Definition to_dense m : tensor K := tmake (s_tag m) [s_rows m; s_cols m] (fun idx => match idx with [i; j] => mget m i j | _ => kzero end).
Definition to_sparse t : smat K :=
  match shp t with
  | [r; c] => mkS (ttag t) r c (flat_map (fun i => map (fun j => (i, j, get t [i; j])) (seq 0 c)) (seq 0 r))
  | _ => mkS (ttag t) 0 0 []
  end.
(** torch's type promotion between the dtypes that occur *)
Definition promote (a b : dtype) : dtype := if dtype_eqb a b then a else match a, b with complex64, _ | _, complex64 => complex64
  | float64, _ | _, float64 => float64 | float32, _ | _, float32 => float32 | float16, _ | _, float16 => float16 | _, _ => a end.
End SparsePrims.

Section SparseMath.
Context {K : CRing}.
Implicit Types (m : smat K) (t : tensor K).

(** sparse_math.py:32-96 sparse_kron.  repeat_interleave / reshape / += build the outer combination of the
    entries.  The zero case returns a float32 matrix with one explicit zero. *)
Definition sparse_kron m m' : result (smat K) :=
  if negb (device_eqb (snd (s_tag m)) (snd (s_tag m'))) then Raise ValueError
  else
    let a := coalesce m in let b := coalesce m' in
    let r := s_rows a * s_rows b in let c := s_cols a * s_cols b in
    if Nat.eqb (List.length (s_ent a)) 0 || Nat.eqb (List.length (s_ent b)) 0
    then sp_make (float32, snd (s_tag m)) r c [(0, 0, kzero)]
    else sp_make (promote (fst (s_tag m)) (fst (s_tag m')), snd (s_tag m)) r c
      (flat_map (fun e => map (fun e' => (fst (fst e) * s_rows b + fst (fst e'), snd (fst e) * s_cols b + snd (fst e'), kmul (snd e) (snd e')))
         (s_ent b)) (s_ent a)).

(** sparse_math.py:99-151 cat_sparse_identity_matrix.  The size of the new matrix is inferred.  The
    indices are computed in the float dtype (exact for the sizes that occur; not modelled). *)
Definition cat_sparse_identity_matrix m (new_length : nat) : result (smat K) :=
  if negb (Nat.eqb (s_rows m) (s_cols m)) then Raise ValueError
  else if Nat.ltb new_length (s_rows m) then Raise ValueError
  else if Nat.eqb new_length (s_rows m) then Ok m
  else Ok (sp_infer (s_tag m) (s_ent (coalesce m) ++ map (fun i => (i, i, kone)) (seq (s_rows m) (new_length - s_rows m)))).

(** sparse_math.py:154-201 sparse_diag; torch.max of an empty tensor raises *)
Definition mask_rows (rows : nat) (l : list (nat * nat * K)) : result (list (nat * nat * K)) :=
  match l with [] => Raise RuntimeError | _ => Ok (filter (fun e => Nat.ltb (fst (fst e)) rows) l) end.
Definition mask_cols (cols : nat) (l : list (nat * nat * K)) : result (list (nat * nat * K)) :=
  match l with [] => Raise RuntimeError | _ => Ok (filter (fun e => Nat.ltb (snd (fst e)) cols) l) end.
Definition sparse_diag (g : tag) (diagonal : list K) (col_offset : Z) (rows cols : nat) : result (smat K) :=
  let l := map (fun i => (i + Z.to_nat (- col_offset), i + Z.to_nat col_offset, nth i diagonal kzero)) (seq 0 (List.length diagonal)) in
  let* l1 := mask_rows rows l in
  let* l2 := mask_cols cols l1 in
  sp_make g rows cols l2.

(** sparse_math.py:204-250 sparse_replace_row; row_index >= 0.  mm of two [r, c] matrices fails unless r = c. *)
Definition sparse_replace_row m (row_index : nat) (row : smat K) : result (smat K) :=
  if negb (Nat.eqb (s_cols m) (s_cols row)) then Raise ValueError
  else if negb (Nat.ltb row_index (s_rows m)) then Raise IndexError
  else
    let* removal := sp_make (s_tag m) (s_rows m) (s_cols m)
        (map (fun i => (i, i, if Nat.eqb i row_index then kzero else kone)) (seq 0 (s_rows m))) in
    let row' := coalesce row in
    let* addition := sp_make (s_tag m) (s_rows m) (s_cols m)
        (map (fun e => (fst (fst e) + row_index, snd (fst e), snd e)) (s_ent row')) in
    let* p := sp_mm removal (coalesce m) in
    sp_add p addition.

(** the numerical primitives orthogonalisation is built on: the Q factor of torch.linalg.qr (reduced), the
    square root and the division of the dtype *)
Record linalg := mkLA { la_qr : tensor K -> tensor K; la_sqrt : K -> K; la_div : K -> K -> K }.
Variable LA : linalg.

(** sparse_math.py:253-311 _orth_by_qr.  The selection matrix has an inferred size. *)
Definition orth_by_qr m (rows_to_orth : list nat) : result (smat K) :=
  let selection := sp_infer (s_tag m) (map (fun p => (fst p, snd p, kone)) (combine (seq 0 (List.length rows_to_orth)) rows_to_orth)) in
  let* sel := sp_mm selection m in
  let q := la_qr LA (transpose (to_dense sel) 0 1) in
  let q_rows := to_sparse (transpose q 0 1) in
  let* removal := sp_make (s_tag m) (s_rows m) (s_cols m)
      (map (fun i => (i, i, if memn i rows_to_orth then kzero else kone)) (seq 0 (s_rows m))) in
  let* res := sp_mm removal m in
  let* res' := fold_left (fun acc pos =>
      let* r := acc in
      let row := coalesce (sp_row q_rows pos) in
      match nth_error rows_to_orth pos with
      | None => Raise IndexError
      | Some i =>
          let* addition := sp_make (s_tag m) (s_rows m) (s_cols m)
              (map (fun e => (fst (fst e) + i, snd (fst e), snd e)) (s_ent row)) in
          sp_add r addition
      end) (seq 0 (s_rows q_rows)) (Ok res) in
  Ok (coalesce res').

(** sparse_math.py:314-347 _orth_by_gram_schmidt.  The product of two one-row matrices has at most one
    entry, whose value is that of the 1x1 matrix; native_norm is the root of the sum of the squares of the
    row. *)
Definition row_norm (row : smat K) : K := la_sqrt LA (sumf (s_cols row) (fun j => kmul (mget row 0 j) (mget row 0 j))).
Definition gs_row m (done : list nat) (i : nat) : result (smat K) :=
  let current := sp_row m i in
  let* sum := fold_left (fun acc d =>
      let* s := acc in
      let done_row := sp_row m d in
      let* no := sp_mm current (sp_t done_row) in
      sp_add s (sp_scale (mget no 0 0) done_row)) done (Ok (mkS (s_tag current) 1 (s_cols current) [])) in
  let* orth := sp_add current (sp_scale (kopp kone) sum) in
  let len := row_norm orth in
  Ok (sp_map (fun v => la_div LA v len) (coalesce orth)).
Fixpoint gs_loop m (done todo : list nat) : result (smat K) :=
  match todo with
  | [] => Ok m
  | i :: rest =>
      let* row := gs_row m done i in
      let* m' := sparse_replace_row m i row in
      gs_loop m' (done ++ [i]) rest
  end.
Definition orth_by_gram_schmidt m (todo : list nat) : result (smat K) := gs_loop m [] todo.

(** sparse_math.py:350-405 construct_conv_matrix: start row, exclusive stop row and the entries *)
Definition conv_rows (mode : string) (L n : nat) : result (nat * nat) :=
  if String.eqb mode "full" then Ok (0, n + L)
  else if String.eqb mode "same" || String.eqb mode "sameshift" then
    let start := L / 2 + L mod 2 - 1 in Ok (start, start + n)
  else if String.eqb mode "valid" then Ok (L - 1, n)
  else Raise ValueError.
Definition construct_conv_matrix (g : tag) (filt : list K) (n : nat) (mode : string) : result (smat K) :=
  let L := List.length filt in
  let* ss := conv_rows mode L n in
  let '(start, stop) := ss in
  let prod := flat_map (fun col => flat_map (fun row => if Nat.leb start (row + col) && Nat.ltb (row + col) stop then [(row, col)] else []) (seq 0 L)) (seq 0 n) in
  match prod with
  | [] => Raise RuntimeError
  | _ => Ok (sp_infer g (map (fun p => (fst p + snd p - start, snd p, nth (fst p) filt kzero)) prod))
  end.

(** torch.arange(start, stop, step), step >= 1, start <= stop *)
Definition arange (start stop step : nat) : list nat := map (fun i => start + i * step) (seq 0 ((stop - start + step - 1) / step)).
Definition select_rows m (rows : list nat) : result (smat K) :=
  let* sel := sp_make (s_tag m) (List.length rows) (s_rows m) (map (fun p => (fst p, snd p, kone)) (combine (seq 0 (List.length rows)) rows)) in
  sp_mm sel m.
(** sparse_math.py:482-516 construct_strided_conv_matrix *)
Definition construct_strided_conv_matrix (g : tag) (filt : list K) (n stride : nat) (mode : string) : result (smat K) :=
  let* c := construct_conv_matrix g filt n mode in
  if Nat.eqb stride 0 then Raise RuntimeError
  else select_rows c (arange (if String.eqb mode "sameshift" then 1 else 0) (s_rows c) stride).

(** sparse_math.py:408-479 construct_conv2d_matrix (fully_sparse=True); filter: a tensor of shape [fh; fw] *)
Definition kron_geom (mode : string) (fw w : nat) : result (Z * nat) :=
  if String.eqb mode "full" then Ok (0%Z, w + fw - 1)
  else if String.eqb mode "same" || String.eqb mode "sameshift" then Ok ((Z.of_nat (fw / 2) - 1 + Z.of_nat (fw mod 2))%Z, w)
  else if String.eqb mode "valid" then Ok ((Z.of_nat fw - 1)%Z, w + 1 - fw)
  else Raise ValueError.
Definition filt_col t (i : nat) : list K := map (fun r => get t [r; i]) (seq 0 (nth 0 (shp t) 0)).
Fixpoint conv2d_loop (g : tag) (diag_values : list K) (diag_index : Z) (krows w : nat) (blocks : list (smat K)) (acc : smat K) : result (smat K) :=
  match blocks with
  | [] => Ok acc
  | b :: rest =>
      let d := (diag_index - 1)%Z in
      let* diag := sparse_diag g diag_values d krows w in
      let* k := sparse_kron diag b in
      let* acc' := sp_add acc k in
      conv2d_loop g diag_values d krows w rest acc'
  end.
Definition construct_conv2d_matrix t (h w : nat) (mode : string) : result (smat K) :=
  let g := ttag t in
  let fw := nth 1 (shp t) 0 in
  let* geom := kron_geom mode fw w in
  let '(di, krows) := geom in
  let* blocks := rmap (fun i => construct_conv_matrix g (filt_col t i) h mode) (seq 0 fw) in
  let diag_values := repeat kone (Nat.min krows w) in
  let* diag := sparse_diag g diag_values di krows w in
  match blocks with
  | [] => Raise IndexError
  | b0 :: rest =>
      let* k0 := sparse_kron diag b0 in
      conv2d_loop g diag_values di krows w rest k0
  end.
(** sparse_math.py:519-587 construct_strided_conv2d_matrix; negative sizes raise *)
Definition construct_strided_conv2d_matrix t (h w stride : nat) (mode : string) : result (smat K) :=
  let fh := nth 0 (shp t) 0 in let fw := nth 1 (shp t) 0 in
  let* out := (if String.eqb mode "full" then Ok (fh + h - 1, fw + w - 1)
     else if String.eqb mode "valid" then Ok (h + 1 - fh, w + 1 - fw)
     else if String.eqb mode "same" || String.eqb mode "sameshift" then Ok (h, w)
     else Raise ValueError) in
  let '(orows, ocols) := out in
  let* c := construct_conv2d_matrix t h w mode in
  if Nat.eqb stride 0 then Raise ValueError
  else
    let start := if String.eqb mode "sameshift" then 1 else 0 in
    select_rows c (flat_map (fun a => map (fun b => a * orows + b) (arange start orows stride)) (arange start ocols stride)).

(** reshape(lead..., -1): the last size is inferred, which torch refuses when the other sizes have product 0 *)
Definition reshape_last t (lead : list nat) : result (tensor K) :=
  if Nat.eqb (prodl lead) 0 then Raise RuntimeError else reshape t (lead ++ [prodl (shp t) / prodl lead]).
(** sparse_math.py:590-613 batch_mm, sparse matrix times a batch [b, n, k] *)
Definition batch_mm m t : result (tensor K) :=
  match shp t with
  | [b; n; k] =>
      if negb (Nat.eqb (s_cols m) n) then Raise ValueError
      else
        let* v := reshape_last (transpose t 0 1) [s_cols m] in
        let* p := sp_dense_mm m v in
        let* r := reshape_last p [s_rows m; b] in
        Ok (transpose r 1 0)
  | _ => Raise ValueError
  end.
(** sparse_math.py:616-636 _batch_dim_mm; dim given as the number of the axis *)
Definition batch_dim_mm m t (dim : nat) : result (tensor K) :=
  let n := nth dim (shp t) 0 in
  let p := transpose t dim (rank t - 1) in
  let* flat := (if Nat.eqb n 0 then Raise RuntimeError else reshape p [prodl (shp t) / n; n]) in
  let* r := sp_dense_mm m (transpose flat 0 1) in
  let* u := reshape (transpose r 0 1) (firstn (rank t - 1) (shp p) ++ [s_rows m]) in
  Ok (transpose u (rank t - 1) dim).
End SparseMath.
Arguments linalg : clear implicits. Arguments mkLA {K}. Arguments la_qr {K}. Arguments la_sqrt {K}. Arguments la_div {K}.
