(** C10: the boundary matrices need filters of at least two taps; a filter of a single tap is rejected. *)
From Coq Require Import List Arith ZArith Lia Bool String.
From Verif Require Import Base Tensor Util Perm Plumb Filters Sparse LinAlg Mat1 Spec Examples Spec2 PropsSwt.
Import ListNotations.

Section Tap.
Context {K : CRing}.
Variable LA : linalg K.
(** for every length, method and second filter *)
Theorem C10_single_tap_matrices g (w : wavelet K) n method :
  (List.length (dec_lo w) = 1 -> construct_boundary_a LA g w n method = Raise TypeError) /\
  (List.length (rec_lo w) = 1 -> construct_boundary_s LA g w n method = Raise TypeError).
Proof.
  split; intros H.
  - unfold construct_boundary_a, construct_a. destruct (dec_lo w) as [|q [|]]; try discriminate. reflexivity.
  - unfold construct_boundary_s, construct_s. destruct (rec_lo w) as [|q [|]]; try discriminate. reflexivity.
Qed.
(** hence MatrixWavedec returns nothing: the call of a new object on data whose transformed axis has m >= 1 samples,
    with any explicit positive level, raises *)
Lemma build_tap g w method m fuel : List.length (dec_lo w) = 1 -> 1 <= m -> 1 <= fuel ->
  snd (build_analysis LA fuel g w method m [] [] false []) = Some TypeError.
Proof.
  intros H Hm Hf. destruct fuel as [|fuel]; [lia|]. cbn [build_analysis]. rewrite H. destruct (Nat.ltb_spec m 1); [lia|].
  rewrite (proj1 (C10_single_tap_matrices g w (if negb (m mod 2 =? 0) then S m else m) method) H). reflexivity.
Qed.
Theorem C10_single_tap w level axis method odd o x t ds : List.length (dec_lo w) = 1 -> (0 < level)%Z ->
  new_mwavedec w (Some level) axis method odd = Ok o ->
  preprocess_tensor x 1 (AxInt (mw_axis o)) false = Ok (t, ds) -> 0 < dim_last t 1 -> Nat.even (dim_last t 1) = true ->
  snd (mw_call LA o x) = Raise TypeError.
Proof.
  intros H Hl Ho Hp Hn He. unfold new_mwavedec in Ho. destruct (ensure_axes axis 1); [|discriminate]. cbn [rbind] in Ho.
  destruct (negb (orth_supported method)); [discriminate|]. destruct (negb _); [discriminate|]. assert (Eo := f_equal (fun r => match r with Ok v => v | Raise _ => o end) Ho). cbn in Eo. subst o. cbn [mw_axis] in Hp.
  unfold mw_call. cbn [mw_axis]. rewrite Hp. replace (dim_last t 1 mod 2) with 0 by (apply Nat.even_spec in He as [q ->]; rewrite Nat.mul_comm, Nat.mod_mul by lia; reflexivity). cbn [Nat.eqb].
  cbn [mw_level]. replace (level <=? 0)%Z with false by lia. cbn [mw_len].
  change (mw_wav (with_level _ _ _)) with w. cbn [with_level mw_mats orb mw_wav mw_method].
  pose proof (build_tap (ttag t) w method (dim_last t 1) (Z.to_nat level) H ltac:(lia) ltac:(lia)) as B.
  destruct (build_analysis LA (Z.to_nat level) (ttag t) w method (dim_last t 1) [] [] false []) as [b err]. cbn [snd] in B. subst err. reflexivity.
Qed.
End Tap.
(** hypotheses met: a bank of single taps, two channels of four samples *)
Theorem ex_C10_single_tap : let w := mkWav (K := ZK) [1]%Z [1]%Z [1]%Z [1]%Z in
  exists o t ds, new_mwavedec w (Some 1%Z) (AxInt (-1)) "qr" None = Ok o /\ preprocess_tensor (exT [2; 4]) 1 (AxInt (mw_axis o)) false = Ok (t, ds) /\
  0 < dim_last t 1 /\ Nat.even (dim_last t 1) = true.
Proof. eexists. eexists. eexists. split; [reflexivity|]. split; [vm_compute; reflexivity|]. split; [vm_compute; lia|reflexivity]. Qed.
