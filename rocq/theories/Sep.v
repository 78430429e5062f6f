(** Model of src/ptwt/separable_conv_transform.py (definitions only). *)
From Coq Require Import List Arith ZArith Lia Bool String Ascii.
From Verif Require Import Base Tensor Util Conv1.
Import ListNotations.

Section Sep.
Context {K : CRing}.
Implicit Types t u : tensor K.

(** Python dictionaries with string keys: association lists in insertion order *)
Definition sdict := list (string * tensor K).
Fixpoint dict_get (d : sdict) (k : string) : option (tensor K) :=
  match d with [] => None | (k', v) :: r => if String.eqb k' k then Some v else dict_get r k end.
(** d[k] = v : an existing key keeps its place *)
Fixpoint dict_set (d : sdict) (k : string) (v : tensor K) : sdict :=
  match d with
  | [] => [(k, v)]
  | (k', v') :: r => if String.eqb k' k then (k', v) :: r else (k', v') :: dict_set r k v
  end.
(** d.pop(k) *)
Fixpoint dict_del (d : sdict) (k : string) : sdict :=
  match d with [] => [] | (k', v') :: r => if String.eqb k' k then r else (k', v') :: dict_del r k end.
Definition dict_pop (d : sdict) (k : string) : result (tensor K * sdict) :=
  match dict_get d k with None => Raise KeyError | Some v => Ok (v, dict_del d k) end.

Definition akey (n : nat) : string := string_of_list_ascii (repeat "a"%char n).

(** separable_conv_transform.py:38-72 _separable_conv_dwtn_.  [todo] = axis_total - len(key); wavedec keeps the
    rank, so axis_total is the same in every recursive call.  rec_dict is returned instead of updated in place. *)
Fixpoint sep_dwtn (todo : nat) (rec_dict : sdict) (input : tensor K) (w : wavelet K) (mode : option string) (key : string)
  : result sdict :=
  match todo with
  | O => Ok (dict_set rec_dict key input)
  | S todo' =>
      let* c := wavedec input w mode (Some 1%Z) (- Z.of_nat (String.length key + 1)) in
      match pc_items c with
      | [PT res_a; PT res_d] =>
          let* d1 := sep_dwtn todo' rec_dict res_a w mode (String "a" key) in
          sep_dwtn todo' d1 res_d w mode (String "d" key)
      | _ => Raise ValueError
      end
  end.

(** separable_conv_transform.py:138-142: int(min(log2(axis_len / (wlen - 1)))), computed exactly.  A negative
    value means an empty loop, hence 0; an empty axis gives int(-inf).  Filter length >= 2. *)
Definition sep_log2 (L n : nat) : nat := if Nat.ltb n (L - 1) then 0 else Nat.log2 (n / (L - 1)).
Definition sep_level (ns : list nat) (L : nat) : result nat :=
  match ns with
  | [] => Raise ValueError
  | n :: r => if existsb (Nat.eqb 0) ns then Raise OverflowError else Ok (fold_left Nat.min (map (sep_log2 L) r) (sep_log2 L n))
  end.

(** separable_conv_transform.py:144-151, the loop of _separable_conv_wavedecn *)
Fixpoint sep_loop (n : nat) (naxes : nat) (w : wavelet K) (mode : option string) (approx : tensor K) (acc : list sdict)
  : result (tensor K * list sdict) :=
  match n with
  | O => Ok (approx, acc)
  | S n' =>
      let* d := sep_dwtn (rank approx - 1) [] approx w mode EmptyString in
      let* p := dict_pop d (akey naxes) in
      sep_loop n' naxes w mode (fst p) (acc ++ [snd p])
  end.
(** separable_conv_transform.py:114-153 _separable_conv_wavedecn *)
Definition sep_wavedecn (input : tensor K) (w : wavelet K) (mode : option string) (level : option Z) : result (pycoeffs K) :=
  let* lev := match level with
              | Some l => Ok l
              | None => let* m := sep_level (tl (shp input)) (get_len w) in Ok (Z.of_nat m)
              end in
  let* r := sep_loop (range_level lev) (rank input - 1) w mode input [] in
  Ok (mkPC false (PT (fst r) :: map PDict (rev (snd r)))).

(** separable_conv_transform.py:351-398 _fswavedecn; fswavedec2 (187-231) and fswavedec3 (234-278) are its
    instances ndim = 2, 3 *)
Definition fswavedecn (data : tensor K) (w : wavelet K) (ndim : nat) (mode : option string) (level : option Z) (axes : axishint)
  : result (pycoeffs K) :=
  let axes' := match axes with AxNone => AxSeq (map (fun i => (Z.of_nat i - Z.of_nat ndim)%Z) (seq 0 ndim)) | _ => axes end in
  let* p := preprocess_tensor data ndim axes' false in
  let* c := sep_wavedecn (fst p) w mode level in
  postprocess_coeffs c ndim (snd p) axes'.
Definition fswavedec2 data w mode level axes := fswavedecn data w 2 mode level axes.
Definition fswavedec3 data w mode level axes := fswavedecn data w 3 mode level axes.

(** coeff[tuple(slice(0, ds) for ds in d_shape)] *)
Definition slice_to t (ds : list nat) : result (tensor K) :=
  if Nat.ltb (rank t) (List.length ds) then Raise IndexError
  else Ok (tmake (ttag t) (map2 Nat.min ds (shp t) ++ skipn (List.length ds) (shp t)) (get t)).
(** coeff.transpose(-1, -c) *)
Definition transpose_last t (c : nat) : result (tensor K) :=
  if Nat.ltb 0 c && Nat.leb c (rank t) then Ok (transpose t (rank t - 1) (rank t - c)) else Raise IndexError.
(** coeff.reshape(-1, coeff.shape[-1]) *)
Definition reshape_flat t : result (tensor K) :=
  let n := dim_last t 1 in
  if Nat.eqb n 0 then Raise RuntimeError else reshape t [prodl (shp t) / n; n].

(** separable_conv_transform.py:91-107, one pair of keys *)
Definition sep_idwt_pair (w : wavelet K) (c : nat) (a_full coeff_d : tensor K) : result (tensor K) :=
  let* coeff_a := slice_to a_full (shp coeff_d) in
  let* trans_a := transpose_last coeff_a c in
  let* trans_d := transpose_last coeff_d c in
  let* flat_a := reshape_flat trans_a in
  let* flat_d := reshape_flat trans_d in
  let* rec_ad := waverec [PT flat_a; PT flat_d] w AxNone in
  let* rec_r := reshape rec_ad (firstn (rank trans_a - 1) (shp trans_a) ++ [dim_last rec_ad 1]) in
  transpose_last rec_r c.

(** keys starting with "a"; key[0] of an empty key raises *)
Definition starts_a (k : string) : result bool :=
  match k with EmptyString => Raise IndexError | String c _ => Ok (Ascii.eqb c "a") end.
Definition tails_key (k : string) : string := match k with EmptyString => EmptyString | String _ r => r end.
Definition a_keys (d : sdict) : result (list string) :=
  let* fl := rmap (fun kv => let* b := starts_a (fst kv) in Ok (fst kv, b)) d in
  Ok (map fst (filter snd fl)).

(** separable_conv_transform.py:89-110, the loop of _separable_conv_idwtn: either the final
    reconstruction or the dictionary for the next round *)
Fixpoint sep_idwtn_loop (in_dict : sdict) (w : wavelet K) (keys : list string) (done : sdict) : result (tensor K + sdict) :=
  match keys with
  | [] => Ok (inr done)
  | k :: rest =>
      match dict_get in_dict (String "d" (tails_key k)), dict_get in_dict k with
      | Some coeff_d, Some a_full =>
          let* r := sep_idwt_pair w (String.length k) a_full coeff_d in
          match tails_key k with
          | EmptyString => Ok (inl r)
          | k' => sep_idwtn_loop in_dict w rest (dict_set done k' r)
          end
      | _, _ => Raise KeyError
      end
  end.
(** separable_conv_transform.py:75-111 _separable_conv_idwtn.  [fuel] bounds the recursion (the keys get
    shorter; an empty dictionary recurses forever: RecursionError). *)
Fixpoint sep_idwtn (fuel : nat) (in_dict : sdict) (w : wavelet K) : result (tensor K) :=
  match fuel with
  | O => Raise RecursionError
  | S fuel' =>
      let* ks := a_keys in_dict in
      let* r := sep_idwtn_loop in_dict w ks [] in
      match r with inl t => Ok t | inr done => sep_idwtn fuel' done w end
  end.

(** max(map(len, keys)) *)
Definition max_key (d : sdict) : result nat :=
  match d with [] => Raise ValueError | _ => Ok (fold_right Nat.max 0 (map (fun kv => String.length (fst kv)) d)) end.

(** separable_conv_transform.py:179-183, the loop of _separable_conv_waverecn.  The second component is the
    content of the level dictionaries afterwards (they are updated in place). *)
Fixpoint sep_rec_loop (w : wavelet K) (approx : tensor K) (levels : list sdict) : result (tensor K) * list sdict :=
  match levels with
  | [] => (Ok approx, [])
  | d :: rest =>
      match max_key d with
      | Raise e => (Raise e, levels)
      | Ok n =>
          let d' := dict_set d (akey n) approx in
          match sep_idwtn (S n) d' w with
          | Raise e => (Raise e, d' :: rest)
          | Ok a => let '(r, ds) := sep_rec_loop w a rest in (r, d' :: ds)
          end
      end
  end.
Definition as_dict (v : pyval K) : result sdict := match v with PDict d => Ok d | _ => Raise ValueError end.
(** separable_conv_transform.py:156-184 _separable_conv_waverecn: result and containers afterwards *)
Definition sep_waverecn (c : pycoeffs K) (w : wavelet K) : result (tensor K) * pycoeffs K :=
  match pc_items c with
  | PT a :: rest =>
      match rmap as_dict rest with
      | Raise e => (Raise e, c)
      | Ok ds => let '(r, ds') := sep_rec_loop w a ds in (r, mkPC (pc_is_list c) (PT a :: map PDict ds'))
      end
  | [] => (Raise IndexError, c)
  | _ => (Raise ValueError, c)
  end.

(** does _preprocess_coeffs (544-590 of _util.py) return the caller's own containers?  Only when neither the
    axes are moved nor a batch dimension is added or folded. *)
Definition pre_aliases (c : pycoeffs K) (ndim : nat) (axes : axishint) : bool :=
  match ensure_axes axes ndim, get_default_axes ndim, pc_items c with
  | Ok ax, Ok dax, PT t :: _ => list_eqb Z.eqb ax dax && Nat.eqb (rank t) (ndim + 1)
  | _, _, _ => false
  end.
(** separable_conv_transform.py:401-446 _fswaverecn: the result, and the caller's coefficient containers after
    the call.  fswaverec2 (281-313) and fswaverec3 are the instances ndim = 2, 3. *)
Definition fswaverecn_eff (coeffs : pycoeffs K) (w : wavelet K) (ndim : nat) (axes : axishint) : result (tensor K) * pycoeffs K :=
  match preprocess_coeffs coeffs ndim axes false with
  | Raise e => (Raise e, coeffs)
  | Ok (c, ds) =>
      match check_same_device_dtype c with
      | Raise e => (Raise e, coeffs)
      | Ok _ =>
          let '(r, c') := sep_waverecn c w in
          (let* t := r in postprocess_tensor t ndim ds axes,
           if pre_aliases coeffs ndim axes then c' else coeffs)
      end
  end.
Definition fswaverecn coeffs w ndim axes := fst (fswaverecn_eff coeffs w ndim axes).
Definition fswaverec2 coeffs w axes := fswaverecn coeffs w 2 axes.
Definition fswaverec3 coeffs w axes := fswaverecn coeffs w 3 axes.

End Sep.
