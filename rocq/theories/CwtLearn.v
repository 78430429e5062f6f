(** Model of the learnable continuous wavelets, src/ptwt/continuous_transform.py:229-310, and of cwt called with one.
    Numbers are exact reals; [None] stands for a nan (0/0, the square root of a negative number, inf times zero).
    pywt's ContinuousWavelet is represented by the fields it provides (frequencies, bounds, complex_cwt). *)
From Coq Require Import List Arith ZArith QArith Qround Qreals Reals Lia Bool.
From Verif Require Import Base Sums Tensor Cwt ExCwt.
Import ListNotations.
Local Open Scope R_scope.

(** floats *)
Definition fl := option R.
Definition fmul (a b : fl) : fl := match a, b with Some x, Some y => Some (x * y) | _, _ => None end.
(** torch division: 0/0 is nan; x/0 is an infinity, which the formulas below turn into nan (1/0 * exp(-x/0) = inf * 0) *)
Definition fdiv (a b : fl) : fl := match a, b with Some x, Some y => if Req_EM_T y 0 then None else Some (x / y) | _, _ => None end.
Definition fsqrt (a : fl) : fl := match a with Some x => if Rle_dec 0 x then Some (sqrt x) else None | None => None end.
Definition fmap (f : R -> R) (a : fl) : fl := match a with Some x => Some (f x) | None => None end.
(** torch.exp(1j * a) *)
Definition cexpi (a : fl) : option CC := match a with Some x => Some (cos x, sin x) | None => None end.
(** a real times a complex number *)
Definition fscale (a : fl) (z : option CC) : option CC := match a, z with Some x, Some (u, v) => Some (x * u, x * v) | _, _ => None end.

Inductive family := Shannon | Morlet.
(** a learnable wavelet: its class, its two parameters, the bounds and complex_cwt inherited from pywt, its device *)
Record dcw := mkDcw { d_family : family; bandwidth_par : fl; center_par : fl; d_lower : Q; d_upper : Q; d_complex : bool; d_device : device }.
(** continuous_transform.py:239-253 __init__: parameters are the square roots of pywt's frequencies; a new module is on the cpu *)
Definition new_dcw (fam : family) (bandwidth_frequency center_frequency : R) (lo hi : Q) (cx : bool) : dcw :=
  mkDcw fam (fsqrt (Some bandwidth_frequency)) (fsqrt (Some center_frequency)) lo hi cx cpu.
(** continuous_transform.py:263-271 bandwidth, center *)
Definition bandwidth (d : dcw) : fl := fmul (bandwidth_par d) (bandwidth_par d).
Definition center (d : dcw) : fl := fmul (center_par d) (center_par d).
(** continuous_transform.py:296-306 _ShannonWavelet.__call__ at one grid value *)
Definition shannon (d : dcw) (t : R) : option CC :=
  let pbt := fmul (fmul (Some PI) (bandwidth d)) (Some t) in
  fscale (fmul (fsqrt (bandwidth d)) (fdiv (fmap sin pbt) pbt))
         (cexpi (fmul (fmul (Some (2 * PI)) (center d)) (Some t))).
(** continuous_transform.py:312-320 _ComplexMorletWavelet.__call__ at one grid value *)
Definition morlet (d : dcw) (t : R) : option CC :=
  fscale (fmul (fdiv (Some 1) (fsqrt (fmul (Some PI) (bandwidth d)))) (fmap exp (fdiv (Some (- (t ^ 2))) (bandwidth d))))
         (cexpi (fmul (fmul (Some (2 * PI)) (center d)) (Some t))).
Definition dcw_call (d : dcw) (t : R) : option CC := match d_family d with Shannon => shannon d t | Morlet => morlet d t end.
(** torch.linspace(lo, hi, n) *)
Definition linspace (lo hi : Q) (n : nat) : list Q :=
  if Nat.eqb n 1 then [lo]
  else map (fun i => (lo + inject_Z (Z.of_nat i) * ((hi - lo) / inject_Z (Z.of_nat (n - 1))))%Q) (seq 0 n).
(** continuous_transform.py:273-289 wavefun: the values and the grid *)
Definition dcw_wavefun (d : dcw) (precision : nat) : list (option CC) * list Q :=
  let grid := linspace (d_lower d) (d_upper d) (2 ^ precision) in
  (map (fun t => dcw_call d (Q2R t)) grid, grid).
(** no nan among the values *)
Fixpoint all_some {A} (l : list (option A)) : option (list A) :=
  match l with
  | [] => Some []
  | None :: _ => None
  | Some a :: rest => match all_some rest with Some r => Some (a :: r) | None => None end
  end.
Definition move (d : dcw) (v : device) : dcw := mkDcw (d_family d) (bandwidth_par d) (center_par d) (d_lower d) (d_upper d) (d_complex d) v.
(** Module.cuda() moves to the current cuda device, number 0 *)
Definition is_cuda (v : device) : bool := match v with cpu => false | cuda _ => true end.
(** continuous_transform.py:82-84, 87-93, 103-155: cwt with a learnable wavelet.  Returns the result ([Ok None]: filled with
    nan) and the module after the call.  Simplified: a module and data on different devices raise RuntimeError at the first
    product (or index) even where the sample positions would raise first; with nan values the shape is not modelled. *)
Definition cwt_learnable (data : tensor CK) (scales : list Q) (d : dcw) (precision : nat) : result (option (tensor CK)) * dcw :=
  let d1 := if is_cuda (tdevice data) then move d (cuda 0) else d in
  let '(psi, x) := dcw_wavefun d1 precision in
  if negb (device_eqb (d_device d1) (tdevice data)) then (Raise RuntimeError, d1)
  else match all_some psi with
       | None => (match grid_step x with Raise e => Raise e | Ok _ => Ok None end, d1)
       | Some v =>
           match cwt CxC data scales (WModule (d_complex d1)) (Approx2 (K := CK) v x) with
           | Raise e => (Raise e, d1)
           | Ok out => (Ok (Some out), let d2 := move d1 cpu in if is_cuda (tdevice data) then move d2 (cuda 0) else d2)
           end
       end.
