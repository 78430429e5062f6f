(** Specifications for the matrix part: what the sparse matrices and products should be.  Nothing here
    refers to the model of the code. *)
From Coq Require Import List Arith ZArith Lia Bool String.
From Verif Require Import Base Tensor Spec.
Import ListNotations.

Section SM.
Context {K : CRing}.

(** the matrix M (size rows x n) applied to a vector *)
Definition mat_vec (M : nat -> nat -> K) (n : nat) (x : nat -> K) (i : nat) : K := sumf n (fun j => kmul (M i j) (x j)).
(** the matrix M with [rows] rows applied to every fibre of the tensor along axis a *)
Definition mat_axis (M : nat -> nat -> K) (rows a : nat) (x : tensor K) : tensor K :=
  along_axes (fun _ => [rows]) (fun s X ks => mat_vec M (nth 0 s 0) (fun j => X [j]) (nth 0 ks 0)) [a] x.

(** the full convolution of the filter f and the signal x of length n: position k, 0 <= k < n + |f| - 1 *)
Definition full_conv (f : list K) (n : nat) (x : nat -> K) (k : nat) : K :=
  sumf n (fun c => kmul (zget f (Z.of_nat k - Z.of_nat c)) (x c)).
(** where the output of a mode starts in the full convolution, and its length (scipy/numpy: "same" is the
    centred part; "valid" are the positions where the signal covers the filter) *)
Definition conv_offset (mode : string) (L : nat) : nat :=
  if String.eqb mode "full" then 0 else if String.eqb mode "valid" then L - 1 else (L - 1) / 2.
Definition conv_length (mode : string) (L n : nat) : nat :=
  if String.eqb mode "full" then n + L - 1 else if String.eqb mode "valid" then n + 1 - L else n.

(** the full two-dimensional convolution of the filter F (a matrix) and an h x w image at (q, r) *)
Definition mat_at (F : tensor K) (a b : Z) : K :=
  if ((0 <=? a) && (a <? Z.of_nat (nth 0 (shp F) 0%nat)) && (0 <=? b) && (b <? Z.of_nat (nth 1 (shp F) 0%nat)))%Z then get F [Z.to_nat a; Z.to_nat b] else kzero.
Definition full_conv2 (F : tensor K) (h w : nat) (x : nat -> nat -> K) (q r : nat) : K :=
  sumf w (fun c => sumf h (fun k => kmul (mat_at F (Z.of_nat q - Z.of_nat k) (Z.of_nat r - Z.of_nat c)) (x k c))).

(** ** inner products of rows, orthonormal families *)
Definition dot (n : nat) (u v : nat -> K) : K := sumf n (fun j => kmul (u j) (v j)).
Definition delta (i j : nat) : K := if Nat.eqb i j then kone else kzero.
(** the rows of an r x n matrix are orthonormal; the columns are *)
Definition orthonormal_rows (r n : nat) (M : nat -> nat -> K) : Prop :=
  forall i j, i < r -> j < r -> dot n (M i) (M j) = delta i j.
Definition orthogonal (n : nat) (M : nat -> nat -> K) : Prop :=
  orthonormal_rows n n M /\ orthonormal_rows n n (fun i j => M j i).
(** linear independence of the vectors V i, i in the list l *)
Definition independent (n : nat) (l : list nat) (V : nat -> nat -> K) : Prop :=
  forall c : nat -> K, (forall j, j < n -> sumL l (fun i => kmul (c i) (V i j)) = kzero) -> forall i, In i l -> c i = kzero.
(** v is a linear combination of the vectors V i, i in the list l *)
Definition in_span (n : nat) (l : list nat) (V : nat -> nat -> K) (v : nat -> K) : Prop :=
  exists c : nat -> K, forall j, j < n -> v j = sumL l (fun i => kmul (c i) (V i j)).

(** what is used of a field: no zero divisors, decidable equality with 0 *)
Definition domain (F : CRing) : Prop :=
  (forall a b : F, kmul a b = kzero -> a = kzero \/ b = kzero) /\ (kone (c := F) <> kzero) /\ (forall a : F, a = kzero \/ a <> kzero).
(** a sum of squares vanishes only if every summand does *)
Definition formally_real (F : CRing) : Prop :=
  forall n (v : nat -> F), sumf n (fun j => kmul (v j) (v j)) = kzero -> forall j, j < n -> v j = kzero.

(** ** orthogonal filter banks *)
(** correlation of two filters at lag d *)
Definition corr (f f' : list K) (d : Z) : K := sumf (List.length f) (fun j => kmul (nth j f kzero) (zget f' (Z.of_nat j + d))).
(** decomposition filters of one even length L >= 2, orthonormal to their own even shifts, orthogonal to each
    other's even shifts; the reconstruction filters are the reversed decomposition filters *)
Record orthogonal_bank (L : nat) (dlo dhi rlo rhi : list K) : Prop := {
  ob_even : L mod 2 = 0;
  ob_two : 2 <= L;
  ob_len_lo : List.length dlo = L;
  ob_len_hi : List.length dhi = L;
  ob_rec_lo : rlo = rev dlo;
  ob_rec_hi : rhi = rev dhi;
  ob_lo : forall k : Z, corr dlo dlo (2 * k) = if Z.eqb k 0 then kone else kzero;
  ob_hi : forall k : Z, corr dhi dhi (2 * k) = if Z.eqb k 0 then kone else kzero;
  ob_cross : forall k : Z, corr dlo dhi (2 * k) = kzero }.
(** the filters truncated at the left (right) end of the signal are linearly independent: position c of the
    truncated shift k of a filter f is f(L/2 + 2k - c) (seen from the right end: f(L/2 - 1 - 2k + c)) *)
Definition left_independent (L : nat) (h g : list K) : Prop := forall a b : nat -> K,
  (forall c, c < L -> sumf (L / 4) (fun k => kadd (kmul (a k) (zget h (Z.of_nat (L / 2) + 2 * Z.of_nat k - Z.of_nat c)))
                                                (kmul (b k) (zget g (Z.of_nat (L / 2) + 2 * Z.of_nat k - Z.of_nat c)))) = kzero) ->
  forall k, k < L / 4 -> a k = kzero /\ b k = kzero.
Definition right_independent (L : nat) (h g : list K) : Prop := forall a b : nat -> K,
  (forall c, c < L -> sumf (L / 4) (fun k => kadd (kmul (a k) (zget h (Z.of_nat (L / 2) - 1 - 2 * Z.of_nat k + Z.of_nat c)))
                                                (kmul (b k) (zget g (Z.of_nat (L / 2) - 1 - 2 * Z.of_nat k + Z.of_nat c)))) = kzero) ->
  forall k, k < L / 4 -> a k = kzero /\ b k = kzero.
Definition boundary_independent (L : nat) (h g : list K) : Prop := left_independent L h g /\ right_independent L h g.
(** the sum of the squares of all entries of a tensor *)
Definition energy (x : tensor K) : K := sumI (shp x) (fun i => kmul (get x i) (get x i)).
End SM.

(** * The boundary-wavelet transform along axis a *)
Section BW.
Context {K : CRing}.
(** [A c] is the c x c transformation matrix used on signals of even length c: the upper half of its rows gives the
    approximation, the lower half the details.  Odd lengths are first extended by one sample (mode m). *)
Definition bw_size (a : nat) (x : tensor K) : nat := even_up (nth a (shp x) 0).
Definition bw_lo (A : nat -> nat -> nat -> K) (m : mode) (a : nat) (x : tensor K) : tensor K :=
  mat_axis (A (bw_size a x)) (bw_size a x / 2) a (ext_even m [a] x).
Definition bw_hi (A : nat -> nat -> nat -> K) (m : mode) (a : nat) (x : tensor K) : tensor K :=
  mat_axis (fun i => A (bw_size a x) (bw_size a x / 2 + i)) (bw_size a x / 2) a (ext_even m [a] x).
Definition bw_approx (A : nat -> nat -> nat -> K) (m : mode) (a j : nat) (x : tensor K) : tensor K := Nat.iter j (bw_lo A m a) x.
(** [cA_J; cD_J; ...; cD_1] *)
Definition bw_coeffs (A : nat -> nat -> nat -> K) (m : mode) (a J : nat) (x : tensor K) : list (tensor K) :=
  bw_approx A m a J x :: map (fun j => bw_hi A m a (bw_approx A m a j x)) (rev (seq 0 J)).
(** the number of levels that are computed: at most lev, and none on a signal shorter than the filters *)
Fixpoint bw_levels (lev L n : nat) : nat :=
  match lev with O => 0 | S lev' => if Nat.ltb n L then 0 else S (bw_levels lev' L (even_up n / 2)) end.
End BW.

(** * Boundary-wavelet analysis along several axes *)
Section BWN.
Context {K : CRing}.
(** the entry of the Kronecker product of the matrices A s_1, A s_2, ... at row (i_1, i_2, ...), column (j_1, j_2, ...) *)
Fixpoint tprod (A : nat -> nat -> nat -> K) (s is js : list nat) : K :=
  match s, is, js with n :: s', i :: is', j :: js' => kmul (A n i j) (tprod A s' is' js') | _, _, _ => kone end.
(** the rows of band k: axis by axis the upper half of the rows (false: approximation) or the lower half (true: details) *)
Fixpoint band_rows (k : list bool) (s ks : list nat) : list nat :=
  match k, s, ks with d :: k', n :: s', i :: ks' => (if d then n / 2 + i else i) :: band_rows k' s' ks' | _, _, _ => [] end.
(** [M s] is the transformation used on data of (even) sizes s: a matrix whose rows and columns are multi-indices.
    Odd sizes are first extended by one sample (mode m). *)
Definition bwn_op (M : list nat -> list nat -> list nat -> K) (m : mode) (k : list bool) (s : list nat) (X : list nat -> K) (ks : list nat) : K :=
  sumI (map even_up s) (fun js => kmul (M (map even_up s) (band_rows k (map even_up s) ks) js) (ext_get m s X (map Z.of_nat js))).
(** band k of one level along the axes axs *)
Definition bwn_band (M : list nat -> list nat -> list nat -> K) (m : mode) (axs : list nat) (k : list bool) (x : tensor K) : tensor K :=
  along_axes (map (fun n => even_up n / 2)) (bwn_op M m k) axs x.
Definition bwn_approx (M : list nat -> list nat -> list nat -> K) (m : mode) (axs : list nat) (j : nat) (x : tensor K) : tensor K :=
  Nat.iter j (bwn_band M m axs (repeat false (List.length axs))) x.
(** the number of levels that are computed for the sizes s *)
Fixpoint bwn_levels (lev L : nat) (s : list nat) : nat :=
  match lev with O => 0 | S lev' => if existsb (fun n => Nat.ltb n L) s then 0 else S (bwn_levels lev' L (map (fun n => even_up n / 2) s)) end.
End BWN.

(** The level chosen for level=None: the deepest k with 2^k (L - 1) <= n along every transformed axis (0 if there is
    none).  An empty axis has no level. *)
Definition default_depth (L : nat) (s : list nat) (k : nat) : Prop :=
  Forall (fun n => 0 < n) s /\ (0 < k -> Forall (fun n => 2 ^ k * (L - 1) <= n) s) /\ Exists (fun n => n < 2 ^ S k * (L - 1)) s.
