(** Concrete cases for C83 and C84. *)
From Coq Require Import List Arith ZArith Lia Bool String.
From Verif Require Import Base Sums Tensor TensorFacts Util Perm Plumb Accept Spec Spec2 Lin Examples Conv1 Conv2 Conv3 Sep Unified Swt SpecSwt PropsSwt PropsLocal PropsFlip PropsRoll.
Import ListNotations.
Local Open Scope nat_scope.

Definition exRev : wavelet ZK := mkWav (K := ZK) (rev (dec_lo exW4)) (rev (dec_hi exW4)) (rec_lo exW4) (rec_hi exW4).
Definition okc {K : CRing} (r : result (pycoeffs K)) : bool := match r with Ok c => Nat.leb 2 (List.length (pc_items c)) | Raise _ => false end.
Lemma okc_ok {K : CRing} (r : result (pycoeffs K)) : okc r = true -> exists c, r = Ok c /\ 2 <= List.length (pc_items c).
Proof. destruct r as [c|e]; cbn; intros H; [|discriminate]. exists c. split; [reflexivity|]. apply Nat.leb_le. exact H. Qed.

Lemma even_levels_b L J ns : forallb (fun n => forallb (fun j => Nat.even (len_after L j n)) (seq 0 J)) ns = true -> even_levels L J ns.
Proof.
  intros H. apply Forall_forall. intros n Hn j Hj. rewrite forallb_forall in H. specialize (H n Hn). cbv beta in H. rewrite forallb_forall in H. apply H. apply in_seq. lia.
Qed.
(** a batch of 6 x 6 integer images, two levels, symmetric padding *)
Theorem ex_C83 : exists c, analyse (Twavedec2 AxNone) (exT [2; 6; 6]) exW4 (Some "symmetric"%string) (Some 2%Z) = Ok c /\ 2 <= List.length (pc_items c) /\
  analyse (Twavedec2 AxNone) (tflip [1; 2] (exT [2; 6; 6])) exRev (Some "symmetric"%string) (Some 2%Z) = Ok (pc_map (tflip [1; 2]) c).
Proof.
  assert (G : okc (analyse (Twavedec2 AxNone) (exT [2; 6; 6]) exW4 (Some "symmetric"%string) (Some 2%Z)) = true) by (vm_compute; reflexivity).
  destruct (okc_ok _ G) as (c & E & Hc). exists c. split; [exact E|]. split; [exact Hc|].
  assert (Hev : forall axes, hint_axes (thint (Twavedec2 AxNone)) (tdim (Twavedec2 AxNone)) = Some axes ->
     let ns := gather (map (norm_axis (rank (exT [2; 6; 6]))) axes) 0 (shp (exT [2; 6; 6])) in even_levels 4 (num_levels (Some 2%Z) 4 ns) ns).
  { intros axes Ha. cbn in Ha. injection Ha as <-. cbv zeta. apply even_levels_b. vm_compute. reflexivity. }
  destruct (C83_flip (Twavedec2 AxNone) (exT [2; 6; 6]) exW4 exRev Msymmetric 4 (Some 2%Z) c eq_refl eq_refl eq_refl ltac:(lia) eq_refl eq_refl eq_refl ltac:(discriminate) ltac:(discriminate) E Hev) as (axes & Ha & HR).
  cbn in Ha. injection Ha as <-. exact HR.
Qed.
(** the data are not symmetric; and on an odd axis the claim fails, so evenness is needed *)
Theorem ex_C83_needed :
  dat (tflip [1; 2] (exT [2; 6; 6])) <> dat (exT [2; 6; 6]) /\
  (exists c c', analyse (Twavedec 0%Z) (exT [5]) exW4 (Some "symmetric"%string) (Some 1%Z) = Ok c /\
     analyse (Twavedec 0%Z) (tflip [0] (exT [5])) exRev (Some "symmetric"%string) (Some 1%Z) = Ok c' /\
     map (dat (K := ZK)) (pc_tensors c') <> map (dat (K := ZK)) (map (tflip [0]) (pc_tensors c))).
Proof.
  split; [vm_compute; discriminate|]. do 2 eexists. split; [vm_compute; reflexivity|]. split; [vm_compute; reflexivity|]. vm_compute. discriminate.
Qed.

(** shifting the images by (2, -4) *)
Theorem ex_C84 : exists c, analyse (Tfswavedec2 AxNone) (exT [2; 6; 8]) exW4 (Some "periodic"%string) (Some 1%Z) = Ok c /\
  (exists c', analyse (Tfswavedec2 AxNone) (troll [1; 2] [2; -4]%Z (exT [2; 6; 8])) exW4 (Some "periodic"%string) (Some 1%Z) = Ok c' /\
     List.length (pc_items c) = 2 /\ Forall2 (pv_rel (rolled [1; 2] [6; 8] [1; -2]%Z)) (pc_items c) (pc_items c')) /\
  dat (troll [1; 2] [2; -4]%Z (exT [2; 6; 8])) <> dat (exT [2; 6; 8]).
Proof.
  assert (G : okc (analyse (Tfswavedec2 AxNone) (exT [2; 6; 8]) exW4 (Some "periodic"%string) (Some 1%Z)) = true) by (vm_compute; reflexivity).
  assert (G2 : (match analyse (Tfswavedec2 AxNone) (exT [2; 6; 8]) exW4 (Some "periodic"%string) (Some 1%Z) with Ok c => Nat.eqb (List.length (pc_items c)) 2 | _ => false end) = true) by (vm_compute; reflexivity).
  destruct (okc_ok _ G) as (c & E & _). exists c. split; [exact E|]. rewrite E in G2. split; [|vm_compute; discriminate].
  assert (Hev : forall axes, hint_axes (thint (Tfswavedec2 AxNone)) (tdim (Tfswavedec2 AxNone)) = Some axes ->
     Forall (fun n => Nat.even n = true) (gather (map (norm_axis (rank (exT [2; 6; 8]))) axes) 0 (shp (exT [2; 6; 8])))).
  { intros axes Ha. cbn in Ha. injection Ha as <-. repeat constructor. }
  destruct (C84_shift (Tfswavedec2 AxNone) (exT [2; 6; 8]) exW4 4 [1; -2]%Z c eq_refl eq_refl eq_refl ltac:(lia) eq_refl E eq_refl Hev) as (axes & c' & Ha & HR).
  cbn in Ha. injection Ha as <-. destruct HR as (H1 & _ & H2). exists c'. split; [exact H1|]. split; [apply Nat.eqb_eq; exact G2|exact H2].
Qed.
(** the stationary transform and the periodic one on a signal of odd length 7 *)
Theorem ex_C84_swt : swt_input (exT [7; 2]) (AxInt 0%Z) 0%Z /\ even_bank exW4 4 /\
  exists c, wavedec (exT [7; 2]) exW4 (Some "periodic"%string) (Some 1%Z) 0%Z = Ok c.
Proof.
  split; [|split].
  - split; [reflexivity|]. split; [reflexivity|]. split; [reflexivity|]. split; [cbv -[Z.le Z.lt]; lia|]. cbn. lia.
  - repeat split. lia.
  - assert (G : okc (wavedec (exT [7; 2]) exW4 (Some "periodic"%string) (Some 1%Z) 0%Z) = true) by (vm_compute; reflexivity).
    destruct (okc_ok _ G) as (c & E & _). exists c. exact E.
Qed.
