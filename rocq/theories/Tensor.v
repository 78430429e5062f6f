(** Tensor model and the torch primitives the library calls.
    A tensor is a dtype/device tag, a shape and the row-major data.
    The primitives are modelled from the torch documentation; they are part of the
    trusted base.  No /repo code is modelled in this file. *)
From Coq Require Import List Arith ZArith Lia Bool.
From Verif Require Import Base.
Import ListNotations.

(** torch dtypes that occur; only float32/float64 are supported by the library. *)
Inductive dtype := float16 | float32 | float64 | int64 | complex64.
Inductive device := cpu | cuda (n : nat).
Definition tag := (dtype * device)%type.

Definition dtype_eqb (a b : dtype) : bool :=
  match a, b with
  | float16, float16 | float32, float32 | float64, float64
  | int64, int64 | complex64, complex64 => true
  | _, _ => false
  end.
Definition device_eqb (a b : device) : bool :=
  match a, b with
  | cpu, cpu => true | cuda n, cuda m => Nat.eqb n m | _, _ => false
  end.

(** list helpers *)
Fixpoint updn {A} (d : nat) (v : A) (l : list A) : list A :=
  match l, d with
  | [], _ => []
  | _ :: l', O => v :: l'
  | a :: l', S d' => a :: updn d' v l'
  end.
Definition insertn {A} (d : nat) (v : A) (l : list A) : list A := firstn d l ++ v :: skipn d l.
Definition removen {A} (d : nat) (l : list A) : list A := firstn d l ++ skipn (S d) l.
Fixpoint index_of (x : nat) (l : list nat) : nat :=
  match l with [] => O | a :: l' => if Nat.eqb a x then O else S (index_of x l') end.
Definition memn (x : nat) (l : list nat) : bool := existsb (Nat.eqb x) l.
Fixpoint nodupb (l : list nat) : bool :=
  match l with [] => true | a :: l' => negb (memn a l') && nodupb l' end.
Fixpoint list_eqb {A} (e : A -> A -> bool) (l l' : list A) : bool :=
  match l, l' with
  | [], [] => true
  | a :: t, b :: t' => e a b && list_eqb e t t'
  | _, _ => false
  end.
Fixpoint map2 {A B C} (f : A -> B -> C) (l : list A) (l' : list B) : list C :=
  match l, l' with a :: t, b :: t' => f a b :: map2 f t t' | _, _ => [] end.

(** row-major index arithmetic *)
Definition prodl (s : list nat) : nat := fold_right Nat.mul 1 s.
Fixpoint ravel (s idx : list nat) : nat :=
  match s, idx with
  | d :: ds, i :: is => i * prodl ds + ravel ds is
  | _, _ => 0
  end.
Fixpoint unravel (s : list nat) (k : nat) : list nat :=
  match s with
  | [] => []
  | d :: ds => k / prodl ds :: unravel ds (k mod prodl ds)
  end.
Definition valid (idx s : list nat) : Prop := Forall2 lt idx s.

Record tensor (K : CRing) := mkT { ttag : tag; shp : list nat; dat : list K }.
Arguments mkT {K}. Arguments ttag {K}. Arguments shp {K}. Arguments dat {K}.
Definition wf {K} (t : tensor K) : Prop := length (dat t) = prodl (shp t).

Definition get {K : CRing} (t : tensor K) (idx : list nat) : K :=
  nth (ravel (shp t) idx) (dat t) kzero.
(** Build a tensor from an index function. *)
Definition tmake {K : CRing} (g : tag) (s : list nat) (f : list nat -> K) : tensor K :=
  mkT g s (map (fun k => f (unravel s k)) (seq 0 (prodl s))).

Definition rank {K} (t : tensor K) : nat := length (shp t).
Definition tdtype {K} (t : tensor K) : dtype := fst (ttag t).
Definition tdevice {K} (t : tensor K) : device := snd (ttag t).

Section Prims.
Context {K : CRing}.
Implicit Types t u : tensor K.

(** t.shape[-i], i >= 1 *)
Definition dim_last t (i : nat) : nat := nth (rank t - i) (shp t) 0.

(** torch.reshape to explicit sizes *)
Definition reshape t (s : list nat) : result (tensor K) :=
  if Nat.eqb (prodl (shp t)) (prodl s) then Ok (mkT (ttag t) s (dat t)) else Raise RuntimeError.

Definition unsqueeze t (d : nat) : tensor K := mkT (ttag t) (insertn d 1 (shp t)) (dat t).
(** torch.squeeze(d): a no-op unless the dimension has size 1 *)
Definition squeeze t (d : nat) : tensor K :=
  if Nat.eqb (nth d (shp t) 0) 1 then mkT (ttag t) (removen d (shp t)) (dat t) else t.

(** torch.permute *)
Definition gather (p : list nat) {A} (def : A) (l : list A) : list A := map (fun d => nth d l def) p.
Definition unperm (p idx : list nat) : list nat :=
  map (fun d => nth (index_of d p) idx 0) (seq 0 (length p)).
Definition permute_nat t (p : list nat) : tensor K :=
  tmake (ttag t) (gather p 0 (shp t)) (fun idx => get t (unperm p idx)).
Definition torch_permute t (p : list Z) : result (tensor K) :=
  let n := Z.of_nat (rank t) in
  if negb (Nat.eqb (length p) (rank t)) then Raise RuntimeError
  else if negb (forallb (fun z => (- n <=? z)%Z && (z <? n)%Z) p) then Raise IndexError
  else
    let q := map (fun z => Z.to_nat (if (z <? 0)%Z then (z + n)%Z else z)) p in
    if nodupb q then Ok (permute_nat t q) else Raise RuntimeError.

(** t.transpose(a, b) *)
Definition swapn (a b d : nat) : nat := if Nat.eqb d a then b else if Nat.eqb d b then a else d.
Definition transpose t (a b : nat) : tensor K :=
  permute_nat t (map (swapn a b) (seq 0 (rank t))).

(** slicing along one axis: t[..., a:a+len, ...] *)
Definition narrow t (d a len : nat) : tensor K :=
  tmake (ttag t) (updn d len (shp t)) (fun idx => get t (updn d (nth d idx 0 + a) idx)).
(** t[..., a:] and t[..., :-b] (b > 0) along axis d, with Python's clamping *)
Definition slice_from t (d a : nat) : tensor K :=
  let n := nth d (shp t) 0 in narrow t d (Nat.min a n) (n - a).
Definition slice_dropend t (d b : nat) : tensor K :=
  let n := nth d (shp t) 0 in narrow t d 0 (n - b).
(** t.flip(d) *)
Definition flip t (d : nat) : tensor K :=
  tmake (ttag t) (shp t) (fun idx => get t (updn d (nth d (shp t) 0 - 1 - nth d idx 0) idx)).

(** torch.cat along d (all other sizes must agree) *)
Definition cat2 (d : nat) t u : result (tensor K) :=
  if Nat.eqb (rank t) (rank u) && Nat.ltb d (rank t)
     && list_eqb Nat.eqb (updn d 0 (shp t)) (updn d 0 (shp u))
  then
    let n := nth d (shp t) 0 in
    Ok (tmake (ttag t) (updn d (n + nth d (shp u) 0) (shp t))
          (fun idx => if Nat.ltb (nth d idx 0) n then get t idx
                      else get u (updn d (nth d idx 0 - n) idx)))
  else Raise RuntimeError.
Fixpoint cat_from (d : nat) t (us : list (tensor K)) : result (tensor K) :=
  match us with [] => Ok t | u :: us' => let* v := cat2 d t u in cat_from d v us' end.
Definition cat (d : nat) (ts : list (tensor K)) : result (tensor K) :=
  match ts with [] => Raise RuntimeError | t :: us => cat_from d t us end.

(** torch.stack along d: all shapes equal *)
Definition stack (d : nat) (ts : list (tensor K)) : result (tensor K) :=
  match ts with
  | [] => Raise RuntimeError
  | t :: _ =>
    if forallb (fun u => list_eqb Nat.eqb (shp u) (shp t)) ts
    then Ok (tmake (ttag t) (insertn d (length ts) (shp t))
               (fun idx => get (nth (nth d idx 0) ts t) (removen d idx)))
    else Raise RuntimeError
  end.

(** torch.split(t, 1, d): the size-1 slices along d *)
Definition split1 t (d : nat) : list (tensor K) :=
  map (fun i => narrow t d i 1) (seq 0 (nth d (shp t) 0)).

(** torch.nn.functional.pad.  [pads] lists (left, right) for the LAST axes, first
    to last axis order; torch's flat argument lists them last axis first. *)
Inductive padmode := PReplicate | PConstant | PReflect | PCircular.
(** source index of padded position o on an axis of length n *)
Definition pad_src (m : padmode) (n padl o : nat) : option nat :=
  match m with
  | PConstant => if Nat.ltb o padl then None else if Nat.ltb (o - padl) n then Some (o - padl) else None
  | PReplicate => Some (Nat.min (o - padl) (n - 1))
  | PReflect =>
      if Nat.ltb o padl then Some (padl - o)
      else if Nat.ltb (o - padl) n then Some (o - padl) else Some (2 * (n - 1) - (o - padl))
  | PCircular =>
      if Nat.ltb o padl then Some (o + n - padl)
      else if Nat.ltb (o - padl) n then Some (o - padl) else Some (o - padl - n)
  end.
Definition pad_ok (m : padmode) (n : nat) (p : nat * nat) : bool :=
  match m with
  | PConstant => true
  | PReplicate => Nat.ltb 0 n
  | PReflect => Nat.ltb (fst p) n && Nat.ltb (snd p) n
  | PCircular => Nat.leb (fst p) n && Nat.leb (snd p) n
  end.
Fixpoint pad_srcs (m : padmode) (s : list nat) (pads : list (nat * nat)) (idx : list nat)
  : option (list nat) :=
  match s, pads, idx with
  | n :: s', p :: ps, o :: os =>
      match pad_src m n (fst p) o, pad_srcs m s' ps os with
      | Some i, Some is => Some (i :: is) | _, _ => None
      end
  | _, _, _ => Some []
  end.
Definition fpad t (pads : list (nat * nat)) (m : padmode) : result (tensor K) :=
  let D := length pads in
  if Nat.ltb (rank t) D then Raise RuntimeError
  else
    let lead := firstn (rank t - D) (shp t) in
    let tr := skipn (rank t - D) (shp t) in
    let rank_ok := match m with
                   | PConstant => true
                   | _ => (Nat.eqb (rank t) (D + 1) || Nat.eqb (rank t) (D + 2))
                          && Nat.leb 1 D && Nat.leb D 3
                   end in
    if negb rank_ok then Raise NotImplementedError
    else if negb (forallb (fun b => b) (map2 (pad_ok m) tr pads)) then Raise RuntimeError
    else Ok (tmake (ttag t) (lead ++ map2 (fun n p => fst p + n + snd p) tr pads)
               (fun idx =>
                  match pad_srcs m tr pads (skipn (rank t - D) idx) with
                  | Some is => get t (firstn (rank t - D) idx ++ is)
                  | None => kzero
                  end)).

(** torch conv1d/conv2d/conv3d (cross-correlation), no padding, groups = 1.
    x : [B; Cin; s...], w : [Cout; Cin; k...]. *)
Definition conv_out (n k stride dil : nat) : nat := (n - dil * (k - 1) - 1) / stride + 1.
Definition conv_nd (stride dil : nat) t u : result (tensor K) :=
  match shp t, shp u with
  | b :: cin :: s, cout :: cin' :: ks =>
      if Nat.eqb (length s) (length ks) && Nat.eqb cin cin'
         && forallb (fun x => x) (map2 (fun n k => Nat.ltb 0 k && Nat.ltb (dil * (k - 1)) n) s ks)
      then Ok (tmake (ttag t) (b :: cout :: map2 (fun n k => conv_out n k stride dil) s ks)
                 (fun idx => match idx with
                    | ib :: co :: os =>
                        sumf cin (fun ci => sumI ks (fun js =>
                          kmul (get t (ib :: ci :: map2 (fun o j => o * stride + j * dil) os js))
                               (get u (co :: ci :: js))))
                    | _ => kzero end))
      else Raise RuntimeError
  | _, _ => Raise RuntimeError
  end.

(** torch conv_transpose1d/2d/3d: x : [B; Cin; s...], w : [Cin; Cout/groups; k...];
    out[o] = sum over i, j with i*stride + j*dil = o + pad of x[i] w[j]. *)
Definition eqidx (l l' : list nat) : bool := list_eqb Nat.eqb l l'.
Definition convt_out (n k stride dil pad : nat) : nat := (n - 1) * stride + dil * (k - 1) + 1 - 2 * pad.
Definition conv_transpose_nd (stride dil : nat) (pad : nat) (groups : nat) t u : result (tensor K) :=
  match shp t, shp u with
  | b :: cin :: s, cin' :: cg :: ks =>
      if Nat.eqb (length s) (length ks) && Nat.eqb cin cin' && Nat.ltb 0 groups
         && Nat.eqb (cin mod groups) 0
         && forallb (fun x => x)
              (map2 (fun n k => Nat.ltb 0 n && Nat.ltb 0 k
                                && Nat.ltb (2 * pad) ((n - 1) * stride + dil * (k - 1) + 1)) s ks)
      then
        let cper := cin / groups in
        Ok (tmake (ttag t) (b :: cg * groups :: map2 (fun n k => convt_out n k stride dil pad) s ks)
              (fun idx => match idx with
                 | ib :: co :: os =>
                     sumf cper (fun c =>
                       let ci := co / cg * cper + c in
                       sumI s (fun is => sumI ks (fun js =>
                         if eqidx (map2 (fun i j => i * stride + j * dil) is js)
                                  (map (fun o => o + pad) os)
                         then kmul (get t (ib :: ci :: is)) (get u (ci :: co mod cg :: js))
                         else kzero)))
                 | _ => kzero end))
      else Raise RuntimeError
  | _, _ => Raise RuntimeError
  end.

End Prims.
