(** Model of src/ptwt/continuous_transform.py: _next_fast_len, cwt, _integrate_wavelet.
    Values are exact elements of a commutative ring [K] (the complex numbers in the intended instance, ExCwt.v);
    scales and grid positions are rationals (every float is one).
    torch.fft.fft / ifft are modelled by their defining sums over a root of unity.
    Not modelled: the dtype of the result (complex promotion), the frequencies (pywt's scale2frequency), the learnable
    wavelets' formulas (wavefun is external: any list of values on any grid), moving modules between devices. *)
From Coq Require Import List Arith ZArith QArith Qround Lia Bool.
From Verif Require Import Base Sums Tensor Learn.
Import ListNotations.
Local Open Scope nat_scope.

Section Cwt.
Context {K : CRing}.
Implicit Types t u data : tensor K.

(** the complex arithmetic used: [cx_root n] is exp(-2 pi i / n), [cx_inv n] is 1/n *)
Record cplx := mkCx { cx_root : nat -> K; cx_inv : nat -> K; cx_conj : K -> K; cx_re : K -> K; cx_sqrt : Q -> K; cx_of : Q -> K }.
Variable C : cplx.

(** continuous_transform.py:17-24 _next_fast_len; for 0: int(2 ** ceil(log2 0)) = int(2 ** -inf) = 0 *)
Definition next_fast_len (n : nat) : nat := if Nat.eqb n 0 then 0 else 2 ^ Nat.log2_up n.

(** size of the last axis; last entry of an index; an index with another last entry *)
Definition tlast t : nat := nth (rank t - 1) (shp t) 0.
Definition ilast t (idx : list nat) : nat := nth (rank t - 1) idx 0.
Definition iput t (j : nat) (idx : list nat) : list nat := updn (rank t - 1) j idx.
(** torch.fft.fft(t, n, dim=-1): crop or zero-pad the last axis to n, then transform; n < 1 is an error *)
Definition fft t (n : nat) : result (tensor K) :=
  if Nat.eqb (rank t) 0 then Raise IndexError
  else if Nat.eqb n 0 then Raise RuntimeError
  else Ok (tmake (ttag t) (updn (rank t - 1) n (shp t)) (fun idx =>
    sumf n (fun j => (if Nat.ltb j (tlast t) then get t (iput t j idx) else kzero) * kpow (cx_root C n) (j * ilast t idx)%nat)%K)).
(** torch.fft.ifft(t, dim=-1) *)
Definition ifft t : result (tensor K) :=
  let n := tlast t in
  if Nat.eqb n 0 then Raise RuntimeError
  else Ok (tmake (ttag t) (shp t) (fun idx =>
    cx_inv C n * sumf n (fun q => get t (iput t q idx) * kpow (kpow (cx_root C n) (n - 1)%nat) (q * ilast t idx)%nat)%K)%K).
(** product of a vector with a tensor, broadcasting along the last axis *)
Definition mul_last u t : result (tensor K) :=
  let a := tlast u in let b := tlast t in
  if (Nat.eqb a b || Nat.eqb a 1 || Nat.eqb b 1)%bool
  then Ok (tmake (ttag t) (updn (rank t - 1) (if Nat.eqb a 1 then b else a) (shp t)) (fun idx =>
         let k := ilast t idx in
         (get u [if Nat.eqb a 1 then 0%nat else k] * get t (if Nat.eqb b 1 then iput t 0 idx else idx))%K))
  else Raise RuntimeError.
(** t[..., :m] *)
Definition take_last t (m : nat) : tensor K := narrow t (rank t - 1) 0 (Nat.min m (tlast t)).
(** torch.diff(t, dim=-1) *)
Definition tdiff t : tensor K :=
  tmake (ttag t) (updn (rank t - 1) (tlast t - 1) (shp t)) (fun idx =>
    (get t (iput t (S (ilast t idx)) idx) - get t idx)%K).
Definition tscale (c : K) t : tensor K := tmake (ttag t) (shp t) (fun idx => (c * get t idx)%K).
Definition treal t : tensor K := tmake (ttag t) (shp t) (fun idx => cx_re C (get t idx)).

(** continuous_transform.py:191-202 _integrate: cumulative sum times the step *)
Definition integrate (psi : list K) (step : Q) : list K :=
  map (fun k => (sumf (S k) (fun j => nth j psi kzero) * cx_of C step)%K) (seq 0 (length psi)).
(** pywt's wavefun: (psi, x), (phi, psi, x) or (phi_d, psi_d, phi_r, psi_r, x) *)
Inductive approximation :=
  | Approx2 (psi : list K) (x : list Q)
  | Approx3 (phi psi : list K) (x : list Q)
  | Approx5 (phi_d psi_d phi_r psi_r : list K) (x : list Q).
(** continuous_transform.py:159-226 _integrate_wavelet: a pair, or a triple for biorthogonal wavelets *)
Definition grid_step (x : list Q) : result Q :=
  match x with a :: b :: _ => Ok (b - a)%Q | _ => Raise IndexError end.
Definition integrate_wavelet (a : approximation) : result (list K * option (list K) * list Q) :=
  match a with
  | Approx2 psi x | Approx3 _ psi x => let* step := grid_step x in Ok (integrate psi step, None, x)
  | Approx5 _ psi_d _ psi_r x => let* step := grid_step x in Ok (integrate psi_d step, Some (integrate psi_r step), x)
  end.

(** the kinds of wavelet objects cwt distinguishes: pywt.Wavelet, pywt.ContinuousWavelet, learnable module *)
Inductive wkind := WDiscrete | WContinuous (complex_cwt : bool) | WModule (complex_cwt : bool).

(** continuous_transform.py:104-112: the positions of the samples.  torch.arange(e) has ceil(e) elements and raises for
    e < 0; j[-1] raises for an empty j; a zero divisor gives nan, which becomes the most negative integer: IndexError.
    Simplified: the divisions are exact rationals (data.dtype floats in the code). *)
Definition sample_positions (P : nat) (x : list Q) (scale : Q) : result (list Z) :=
  let* step := grid_step x in
  let e := (scale * (last x 0 - hd 0 x) + 1)%Q in
  if Qle_bool 0 e then
    let count := Z.to_nat (Qceiling e) in
    if Nat.eqb count 0 then Raise IndexError
    else if Qeq_bool (scale * step)%Q 0 then Raise IndexError
    else
      let j := map (fun k => Qfloor (inject_Z (Z.of_nat k) / (scale * step))) (seq 0 count) in
      Ok (if (Z.of_nat P <=? last j 0)%Z then filter (fun z => (z <? Z.of_nat P)%Z) j else j)
  else Raise RuntimeError.
(** int_psi[j]: negative indices count from the end *)
Definition index_tensor (l : list K) (js : list Z) : result (list K) :=
  rmap (fun z => let P := Z.of_nat (length l) in
         if ((0 <=? z) && (z <? P))%Z then Ok (nth (Z.to_nat z) l kzero)
         else if ((- P <=? z) && (z <? 0))%Z then Ok (nth (Z.to_nat (z + P)) l kzero)
         else Raise IndexError) js.
Definition int_psi_scale (int_psi : list K) (x : list Q) (scale : Q) : result (list K) :=
  let* j := sample_positions (length int_psi) x scale in
  let* v := index_tensor int_psi j in Ok (rev v).

(** continuous_transform.py:103-136: one round of the loop; [st] is (size_scale0, fft_data), None for -1 / None *)
Definition fft_cache := option (nat * tensor K).
Definition cwt_step data (int_psi : list K) (x : list Q) (st : fft_cache) (scale : Q) : result (fft_cache * tensor K) :=
  let* w := int_psi_scale int_psi x scale in
  if Nat.eqb (rank data) 0 then Raise IndexError else
  let n := tlast data in
  let m := length w in
  let size := next_fast_len (n + m - 1) in
  let* fd := match st with
             | Some (size0, fd) => if Nat.eqb size size0 then Ok fd else fft data size
             | None => fft data size
             end in
  let* fw := fft (mkT (ttag data) [m] w) size in
  let* p := mul_last fw fd in
  let* c := ifft p in
  let conv := take_last c (n + m - 1) in
  let coef := tscale (- cx_sqrt C scale)%K (tdiff conv) in
  let cl := tlast coef in
  if Nat.ltb n cl then
    let a := (cl - n) / 2 in let b := (cl - n + 1) / 2 in
    Ok (Some (size, fd), narrow coef (rank coef - 1) a (cl - b - a))
  else if Nat.ltb cl n then Raise ValueError
  else Ok (Some (size, fd), coef).
Fixpoint cwt_loop data (int_psi : list K) (x : list Q) (st : fft_cache) (scales : list Q) : result (list (tensor K)) :=
  match scales with
  | [] => Ok []
  | s :: rest =>
      let* r := cwt_step data int_psi x st s in
      let* ts := cwt_loop data int_psi x (fst r) rest in
      Ok (snd r :: ts)
  end.
(** continuous_transform.py:27-156 cwt; unpacking the triple of a biorthogonal wavelet raises ValueError *)
Definition cwt data (scales : list Q) (kind : wkind) (a : approximation) : result (tensor K) :=
  let* r := integrate_wavelet a in
  match r with
  | (int_psi0, None, x) =>
      let int_psi := match kind with
                     | WDiscrete => int_psi0
                     | WContinuous c | WModule c => if c then map (cx_conj C) int_psi0 else int_psi0
                     end in
      let* out := cwt_loop data int_psi x None scales in
      let* t := stack 0 out in
      Ok (match kind with
          | WDiscrete => treal t
          | WContinuous c | WModule c => if c then t else treal t
          end)
  | (_, Some _, _) => Raise ValueError
  end.
End Cwt.
Arguments cplx : clear implicits.
Arguments approximation : clear implicits.
