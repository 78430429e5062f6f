(** Independent specifications.  Nothing here refers to the model of the code (only to the
    tensor type and finite sums). *)
From Coq Require Import List Arith ZArith Lia Bool String.
From Verif Require Import Base Tensor.
Import ListNotations.

(** the dtypes the documentation promises to support *)
Definition float_tensor {K : CRing} (x : tensor K) : Prop := tdtype x = float32 \/ tdtype x = float64.

(** * Signal extension (docs: constants.py:88-117, pywt documentation) *)
Inductive mode := Mzero | Mconstant | Mperiodic | Msymmetric | Mreflect.
Definition mode_name (m : mode) : string :=
  match m with
  | Mzero => "zero" | Mconstant => "constant" | Mperiodic => "periodic"
  | Msymmetric => "symmetric" | Mreflect => "reflect"
  end%string.

(** Index of the sample of a length-n signal found at position z of its extension to all
    integers ([None]: the extension is 0 there). *)
Definition ext_idx (m : mode) (n : nat) (z : Z) : option nat :=
  let N := Z.of_nat n in
  match m with
  | Mzero => if ((0 <=? z) && (z <? N))%Z then Some (Z.to_nat z) else None
  | Mconstant => Some (Z.to_nat (Z.max 0 (Z.min z (N - 1))))
  | Mperiodic => Some (Z.to_nat (z mod N)%Z)
  | Msymmetric =>          (* ... x1 x0 | x0 x1 ... x(n-1) | x(n-1) ... : period 2n *)
      let r := (z mod (2 * N))%Z in
      Some (Z.to_nat (if (r <? N)%Z then r else (2 * N - 1 - r)%Z))
  | Mreflect =>            (* ... x2 x1 | x0 x1 ... x(n-1) | x(n-2) ... : period 2n-2 *)
      let r := (z mod (2 * N - 2))%Z in
      Some (Z.to_nat (if (r <? N)%Z then r else (2 * N - 2 - r)%Z))
  end.

(** several axes at once *)
Fixpoint ext_idxs (m : mode) (s : list nat) (zs : list Z) : option (list nat) :=
  match s, zs with
  | n :: s', z :: zs' =>
      match ext_idx m n z, ext_idxs m s' zs' with
      | Some i, Some is => Some (i :: is) | _, _ => None
      end
  | _, _ => Some []
  end.

Section S.
Context {K : CRing}.

(** the extension of X : (indices of shape s) -> K to all integer multi-indices *)
Definition ext_get (m : mode) (s : list nat) (X : list nat -> K) (zs : list Z) : K :=
  match ext_idxs m s zs with Some is => X is | None => kzero end.

(** * Fibrewise operations along axes *)
Fixpoint upds (axes vals idx : list nat) : list nat :=
  match axes, vals with
  | a :: axes', v :: vals' => updn a v (upds axes' vals' idx)
  | _, _ => idx
  end.
(** [along_axes osz op nax x]: every fibre of x along the axes nax (all other indices fixed)
    is replaced by the result of [op shape fibre], whose shape is [osz shape]. *)
Definition along_axes (osz : list nat -> list nat) (op : list nat -> (list nat -> K) -> list nat -> K)
  (nax : list nat) (x : tensor K) : tensor K :=
  let s := gather nax 0 (shp x) in
  tmake (ttag x) (upds nax (osz s) (shp x))
    (fun idx => op s (fun is => get x (upds nax is idx)) (gather nax 0 idx)).

(** the fibre of x along the axes nax through the multi-index idx, as a tensor of its own *)
Definition fibre (nax idx : list nat) (x : tensor K) : tensor K :=
  tmake (ttag x) (gather nax 0 (shp x)) (fun is => get x (upds nax is idx)).
(** idx is a position on the untouched axes *)
Definition fib_ok (nax idx s : list nat) : Prop :=
  List.length idx = List.length s /\ forall d, d < List.length s -> ~ In d nax -> nth d idx 0 < nth d s 0.
(** torch's a*x + b*y on tensors of equal shape *)
Definition tlin (a b : K) (x y : tensor K) : tensor K :=
  mkT (ttag x) (shp x) (map2 (fun u v => kadd (kmul a u) (kmul b v)) (dat x) (dat y)).
(** y agrees with x at every position of x (y may be larger) *)
Definition agrees_on (x y : tensor K) : Prop :=
  List.length (shp y) = List.length (shp x) /\ ttag y = ttag x /\
  forall idx, valid idx (shp x) -> valid idx (shp y) /\ get y idx = get x idx.

(** * The discrete wavelet transform *)
(** product of the filter taps fs_1[j_1] * ... * fs_N[j_N] *)
Fixpoint taps (fs : list (list K)) (js : list nat) : K :=
  match fs, js with f :: fs', j :: js' => kmul (nth j f kzero) (taps fs' js') | _, _ => kone end.

(** y[k] = sum_j fs[j] E[2k+1-j] : pywt's (separable) DWT with one filter per axis *)
Definition dwt_op (fs : list (list K)) (m : mode) (s : list nat) (X : list nat -> K) (ks : list nat) : K :=
  sumI (map (@List.length K) fs) (fun js =>
    kmul (taps fs js)
         (ext_get m s X (map2 (fun k j => (2 * Z.of_nat k + 1 - Z.of_nat j)%Z) ks js))).
(** output length of a length-n axis with filters of length L *)
Definition dwt_len (L n : nat) : nat := (n + L - 1) / 2.
Definition dwt_axes (fs : list (list K)) (m : mode) (nax : list nat) (x : tensor K) : tensor K :=
  along_axes (map2 (fun f n => dwt_len (List.length f) n) fs) (dwt_op fs m) nax x.

(** * The inverse transform *)
(** product of taps at integer positions (0 outside the filter) *)
Fixpoint tapsz (gs : list (list K)) (zs : list Z) : K :=
  match gs, zs with g :: gs', z :: zs' => kmul (zget g z) (tapsz gs' zs') | _, _ => kone end.
(** contribution of one channel: x[o] = sum_k X[k] g[o + (L-2) - 2k] *)
Definition idwt_op (L : nat) (gs : list (list K)) (s : list nat) (X : list nat -> K) (os : list nat) : K :=
  sumI s (fun ks => kmul (X ks)
     (tapsz gs (map2 (fun o k => (Z.of_nat o + Z.of_nat L - 2 - 2 * Z.of_nat k)%Z) os ks))).

(** all C channels [ys 0 .. ys (C-1)] (same shape) added up; [outs]: output sizes along the axes *)
Definition idwt_axes (L C : nat) (gs : nat -> list (list K)) (nax : list nat) (ys : nat -> tensor K) (outs : list nat) : tensor K :=
  let s := gather nax 0 (shp (ys 0)) in
  tmake (ttag (ys 0)) (upds nax outs (shp (ys 0)))
    (fun idx => sumf C (fun c => idwt_op L (gs c) s (fun is => get (ys c) (upds nax is idx)) (gather nax 0 idx))).

(** the input extended by the boundary mode to the next even length on each axis *)
Definition even_up (n : nat) : nat := n + n mod 2.
Definition ext_even (m : mode) (nax : list nat) (x : tensor K) : tensor K :=
  along_axes (map even_up) (fun s X ks => ext_get m s X (map Z.of_nat ks)) nax x.

End S.

(** * Multilevel analysis: approximation after j levels (low-pass filter lo on every axis) *)
Section Levels.
Context {K : CRing}.
Definition approx (lo : list K) (m : mode) (nax : list nat) (j : nat) (x : tensor K) : tensor K :=
  Nat.iter j (dwt_axes (repeat lo (List.length nax)) m nax) x.
(** the coefficients of level j >= 1 obtained with filters fs (one per axis) *)
Definition detail (lo : list K) (fs : list (list K)) (m : mode) (nax : list nat) (j : nat) (x : tensor K) : tensor K :=
  dwt_axes fs m nax (approx lo m nax (j - 1) x).
(** [cA_J; cD_J; ...; cD_1] *)
Definition wavedec_spec (lo hi : list K) (m : mode) (a J : nat) (x : tensor K) : list (tensor K) :=
  approx lo m [a] J x :: map (fun j => detail lo [hi] m [a] j x) (rev (seq 1 J)).
(** [cA; cD_J; ...; cD_1] -> signal.  Each level doubles the length k to 2k+2-L, or to the length of
    the next detail tensor when that one is a sample shorter (an odd length during analysis). *)
Definition rec_len (L a : nat) (lo : tensor K) (rest : list (tensor K)) : nat :=
  match rest with [] => 2 * nth a (shp lo) 0 + 2 - L | h :: _ => nth a (shp h) 0 end.
Definition idwt1 (L : nat) (rlo rhi : list K) (a : nat) (lo hi : tensor K) (n : nat) : tensor K :=
  idwt_axes L 2 (fun c => match c with O => [rlo] | _ => [rhi] end) [a] (fun c => match c with O => lo | _ => hi end) [n].
Fixpoint waverec_spec (L : nat) (rlo rhi : list K) (a : nat) (lo : tensor K) (his : list (tensor K)) : tensor K :=
  match his with
  | [] => lo
  | hi :: rest => waverec_spec L rlo rhi a (idwt1 L rlo rhi a lo hi (rec_len L a lo rest)) rest
  end.
(** lengths along the axis of a coefficient list that fits together: k = current length *)
Fixpoint lens_fit (L : nat) (k : nat) (ds : list nat) : Prop :=
  match ds with
  | [] => True
  | d :: rest => d = k /\ 1 <= k /\
      match rest with
      | [] => True
      | n :: _ => (n + L = 2 * k + 2 \/ n + L = 2 * k + 1) /\ lens_fit L n rest
      end
  end.
End Levels.

(** * Which signal lengths a boundary mode can handle with a filter of length L.
    The mirrored/periodic part must not need more samples than exist. *)
Definition admissible (m : mode) (L n : nat) : Prop :=
  match m with
  | Mzero => 2 < n + L
  | Mconstant => 0 < n
  | Mperiodic => 0 < n /\ L - 2 + n mod 2 <= n
  | Msymmetric => 0 < n
  | Mreflect => L - 2 + n mod 2 < n
  end.

(** length after j levels *)
Fixpoint len_after (L j n : nat) : nat :=
  match j with O => n | S j' => len_after L j' (dwt_len L n) end.
(** every level 1..J is admissible *)
Definition levels_ok (m : mode) (L J n : nat) : Prop :=
  forall j, j < J -> admissible m L (len_after L j n).

(** * Perfect-reconstruction filter banks (Vetterli/Kovacevic): no distortion, no aliasing.
    c(f,g)[k] = sum_i f[i] g[k-i]. *)
Section PR.
Context {K : CRing}.
Definition convc (f g : list K) (k : nat) : K :=
  sumf (S k) (fun i => kmul (nth i f kzero) (nth (k - i) g kzero)).
(** sum_i (-1)^i f[i] g[k-i]: the aliasing term *)
Definition sgn (i : nat) (x : K) : K := if Nat.even i then x else kopp x.
Definition aliasc (f g : list K) (k : nat) : K :=
  sumf (S k) (fun i => sgn i (kmul (nth i f kzero) (nth (k - i) g kzero))).
Record pr_bank (dlo dhi rlo rhi : list K) (L : nat) : Prop := {
  pr_len : List.length dlo = L /\ List.length dhi = L /\ List.length rlo = L /\ List.length rhi = L;
  pr_even : Nat.even L = true;
  pr_two : 2 <= L;
  pr_distortion : forall k, kadd (convc dlo rlo k) (convc dhi rhi k)
                            = if Nat.eqb k (L - 1) then kadd kone kone else kzero;
  pr_alias : forall k, kadd (aliasc dlo rlo k) (aliasc dhi rhi k) = kzero
}.
End PR.
