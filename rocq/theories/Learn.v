(** Model of src/ptwt/wavelets_learnable.py: the losses of learnable filter banks.
    A filter is a 1-d tensor, modelled by the list of its values; the leading unit axes that the code adds with
    unsqueeze(0).unsqueeze(0) before every conv1d are erased, as are dtypes, devices and gradients (the code
    creates its constants with the dtype of dec_lo, except the zeros of rec_lo_orthogonality_loss). *)
From Coq Require Import List Arith ZArith Bool.
From Verif Require Import Base Tensor Util.
Import ListNotations.

Section Learn.
Context {K : CRing}.
Implicit Types (a b : list K).
Local Open Scope K_scope.

(** torch: elementwise operation of two 1-d tensors, broadcasting a size of 1 *)
Definition bcast (op : K -> K -> K) a b : result (list K) :=
  if Nat.eqb (length a) (length b) then Ok (map2 op a b)
  else match a, b with
       | [x], _ => Ok (map (op x) b)
       | _, [y] => Ok (map (fun x => op x y) a)
       | _, _ => Raise RuntimeError
       end.
(** torch.nn.functional.conv1d (cross-correlation) of one channel with zero padding on both sides *)
Definition conv1d (stride pad : nat) a b : result (list K) :=
  let n := (length a + 2 * pad)%nat in
  if Nat.ltb 0 (length b) && Nat.leb (length b) n
  then Ok (map (fun k => sumf (length b) (fun j => zget a (Z.of_nat (k * stride + j) - Z.of_nat pad) * nth j b 0))
             (seq 0 ((n - length b) / stride + 1)))
  else Raise RuntimeError.
(** torch.sum *)
Definition tsum a : K := sumL a (fun x => x).
(** torch.zeros(n) with entry i set to v *)
Definition spike (n i : nat) (v : K) : list K := map (fun k => if Nat.eqb k i then v else 0) (seq 0 n).

Variable w : wavelet K.   (* dec_lo, dec_hi, rec_lo, rec_hi = self.filter_bank *)

Fixpoint kpow (x : K) (n : nat) : K := match n with O => 1 | S m => kpow x m * x end.
(** wavelets_learnable.py:58-62, 84-88: [torch.pow(m1, n) for n in range(length)][::-1] *)
Definition mask (length : nat) : list K := rev (map (kpow (- (1))) (seq 0 length)).

(** wavelets_learnable.py:43-74 pf_alias_cancellation_loss *)
Definition pf_alias_cancellation_loss : result (K * list K * list K) :=
  let m := mask (length (dec_lo w)) in
  let* p1 := bcast kmul m (dec_hi w) in
  let* err1 := bcast ksub (rec_lo w) p1 in
  let err1s := tsum (map (fun e => e * e) err1) in
  let m1 := map (fun e => - (1) * e) m in
  let* p2 := bcast kmul m1 (dec_lo w) in
  let* err2 := bcast ksub (rec_hi w) p2 in
  let err2s := tsum (map (fun e => e * e) err2) in
  Ok (err1s + err2s, err1, err2).

(** wavelets_learnable.py:76-114 alias_cancellation_loss *)
Definition alias_cancellation_loss : result (K * list K * list K) :=
  let m := mask (length (dec_lo w)) in
  let* a := bcast kmul (dec_lo w) m in
  let* p_lo := conv1d 1 (length (dec_lo w) - 1) a (rev (rec_lo w)) in
  let* b := bcast kmul (dec_hi w) m in
  let* p_hi := conv1d 1 (length (dec_hi w) - 1) b (rev (rec_hi w)) in
  let* p_test := bcast kadd p_lo p_hi in
  let zeros := map (fun _ => 0) p_test in
  let errs := map2 (fun p z => (p - z) * (p - z)) p_test zeros in
  Ok (tsum errs, p_test, zeros).

(** wavelets_learnable.py:116-165 perfect_reconstruction_loss *)
Definition perfect_reconstruction_loss : result (K * list K * list K) :=
  let* p_lo := conv1d 1 (length (dec_lo w) - 1) (dec_lo w) (rev (rec_lo w)) in
  let* p_hi := conv1d 1 (length (dec_hi w) - 1) (dec_hi w) (rev (rec_hi w)) in
  let* p_test := bcast kadd p_lo p_hi in
  let two_at_power_zero := spike (length p_test) (length p_test / 2) (1 + 1) in
  let errs := map2 (fun p z => (p - z) * (p - z)) p_test two_at_power_zero in
  Ok (tsum errs, p_test, two_at_power_zero).

(** wavelets_learnable.py:205-211 ProductFilter.product_filter_loss; 213-219 ProductFilter.wavelet_loss *)
Definition product_filter_loss : result K :=
  let* p := perfect_reconstruction_loss in
  let* q := alias_cancellation_loss in
  Ok (fst (fst p) + fst (fst q)).

(** wavelets_learnable.py:225-255 SoftOrthogonalWavelet.rec_lo_orthogonality_loss *)
Definition rec_lo_orthogonality_loss : result K :=
  let filt_len := length (dec_lo w) in
  let pad_dec_lo := dec_lo w ++ repeat 0 filt_len in
  let* res := conv1d 2 0 pad_dec_lo (dec_lo w) in
  let test := spike (length res) 0 1 in
  let err := map2 ksub res test in
  Ok (tsum (map (fun e => e * e) err)).

(** wavelets_learnable.py:257-272 SoftOrthogonalWavelet.filt_bank_orthogonality_loss *)
Definition filt_bank_orthogonality_loss : result K :=
  let* eq0 := bcast ksub (dec_lo w) (rev (rec_lo w)) in
  let* eq1 := bcast ksub (dec_hi w) (rev (rec_hi w)) in
  Ok (tsum (map (fun e => e * e) eq0) + tsum (map (fun e => e * e) eq1)).

(** wavelets_learnable.py:274-276 SoftOrthogonalWavelet.wavelet_loss *)
Definition soft_wavelet_loss : result K :=
  let* p := product_filter_loss in
  let* f := filt_bank_orthogonality_loss in
  Ok (p + f).

End Learn.
