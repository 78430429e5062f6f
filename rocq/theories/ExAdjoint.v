(** Concrete cases for C81 and C82. *)
From Coq Require Import List Arith ZArith QArith Qcanon Lia Bool String Reals.
From Verif Require Import Base Sums Tensor TensorFacts Util Perm Plumb Accept Spec Lin Examples Conv1 Conv2 Conv3 Sep Unified UnifiedRec PropsSwt SpecMat PropsMat1 RealLA ExReal ExMat1 PropsLocal PropsAdjoint.
Import ListNotations.
Local Open Scope nat_scope.

Lemma laid_out_map {K : CRing} (g : tensor K -> tensor K) : (forall t, wf (g t) /\ shp (g t) = shp t /\ ttag (g t) = ttag t) ->
  forall (c : pycoeffs K), Forall (fun v => v <> POther) (pc_items c) -> laid_out_like c (pc_map g c).
Proof.
  intros Hg [b items] H. split; [reflexivity|]. cbn [pc_map pc_items] in *. induction H as [|v items Hv H IH]; cbn [map]; constructor; [|exact IH].
  destruct v as [t|l|d|]; cbn [pv_map]; [| | |congruence]; constructor.
  - apply Hg.
  - clear - Hg. induction l; cbn [map]; constructor; auto.
  - clear - Hg. induction d; cbn [map]; constructor; [split; [reflexivity|apply Hg]|assumption].
Qed.

(** analysis of a batch of 5 x 7 integer images with a four-tap biorthogonal bank, two levels; an arbitrary container
    of the same layout; the synthesis bank is the time-reversed analysis bank *)
Definition exAdj : wavelet ZK := mkWav (K := ZK) (dec_lo exW4) (dec_hi exW4) (rev (dec_lo exW4)) (rev (dec_hi exW4)).
Definition exSq (t : tensor ZK) : tensor ZK := tmake (ttag t) (shp t) (fun i => (get t i * get t i + kone)%K).
Definition checkAdj (T : transform) (x : tensor ZK) (level : option Z) : option (Z * Z) :=
  match analyse T x exW4 (Some "zero"%string) level with
  | Ok cx => match inverse T (pc_map exSq cx) exAdj with
             | Ok y => Some (inners (pc_tensors cx) (pc_tensors (pc_map exSq cx)), inner x y)
             | _ => None end
  | _ => None
  end.
Definition exGood {K : CRing} (n : nat) (r : result (pycoeffs K)) : bool :=
  match r with Ok c => (List.length (pc_items c) =? n)%nat && forallb (fun v => match v with POther => false | _ => true end) (pc_items c) | Raise _ => false end.
Lemma exGood_ok {K : CRing} n (c : pycoeffs K) : exGood n (Ok c) = true -> List.length (pc_items c) = n /\ Forall (fun v => v <> POther) (pc_items c).
Proof.
  cbn. intros H. apply andb_prop in H as [H1 H2]. split; [apply Nat.eqb_eq; exact H1|]. rewrite forallb_forall in H2. apply Forall_forall. intros v Hv ->. specialize (H2 _ Hv). discriminate.
Qed.
Theorem ex_C82 :
  (exists cx, analyse (Twavedec2 AxNone) (exT [2; 5; 7]) exW4 (Some "zero"%string) (Some 2%Z) = Ok cx /\ List.length (pc_items cx) = 3 /\
     laid_out_like cx (pc_map exSq cx) /\ exists y, inverse (Twavedec2 AxNone) (pc_map exSq cx) exAdj = Ok y /\
     covers (exT [2; 5; 7]) y /\ inners (pc_tensors cx) (pc_tensors (pc_map exSq cx)) = inner (exT [2; 5; 7]) y) /\
  (exists v, v <> 0%Z /\ checkAdj (Twavedec2 AxNone) (exT [2; 5; 7]) (Some 2%Z) = Some (v, v)) /\
  (exists v, v <> 0%Z /\ checkAdj (Tfswavedec3 AxNone) (exT [3; 4; 5]) (Some 1%Z) = Some (v, v)) /\
  (exists v, v <> 0%Z /\ checkAdj (Twavedec 0%Z) (exT [7; 2]) (Some 3%Z) = Some (v, v)).
Proof.
  split.
  - assert (G : exGood 3 (analyse (Twavedec2 AxNone) (exT [2; 5; 7]) exW4 (Some "zero"%string) (Some 2%Z)) = true) by (vm_compute; reflexivity).
    destruct (analyse (Twavedec2 AxNone) (exT [2; 5; 7]) exW4 (Some "zero"%string) (Some 2%Z)) as [cx|e] eqn:E.
    + exists cx. split; [reflexivity|]. assert (HF : List.length (pc_items cx) = 3 /\ Forall (fun v => v <> POther) (pc_items cx)).
      { apply exGood_ok. exact G. }
      split; [apply HF|]. assert (Hl : laid_out_like cx (pc_map exSq cx)).
      { apply laid_out_map; [|apply HF]. intros t. split; [apply wf_make|]. split; [apply shp_make|reflexivity]. }
      split; [exact Hl|]. apply (C82_adjoint (Twavedec2 AxNone) (exT [2; 5; 7]) exW4 exAdj 4 (Some 2%Z) cx (pc_map exSq cx)); try reflexivity; auto; try discriminate; lia.
    + discriminate.
  - split; [|split]; (eexists; split; [|vm_compute; reflexivity]; discriminate).
Qed.

(** a rational orthogonal bank with four taps *)
Definition qO4 : wavelet QcK := let f := [Q2Qc (3 # 13); Q2Qc (36 # 65); Q2Qc (- 48 # 65); Q2Qc (4 # 13)] : list QcK in
  let g := [Qcopp (Q2Qc (4 # 13)); Q2Qc (- 48 # 65); Qcopp (Q2Qc (36 # 65)); Q2Qc (3 # 13)] : list QcK in mkWav (K := QcK) f g (rev f) (rev g).
Lemma qO4_ok : orthogonal_bank 4 (dec_lo qO4) (dec_hi qO4) (rec_lo qO4) (rec_hi qO4).
Proof.
  apply (bank4 (K := QcK) (Q2Qc (3 # 13)) (Q2Qc (36 # 65)) (Q2Qc (- 48 # 65)) (Q2Qc (4 # 13))); apply Qc_is_canon; vm_compute; reflexivity.
Qed.
Theorem ex_C81 :
  exists c, analyse (Twavedec3 AxNone) (exQ [2; 3; 2; 3]) qO4 (Some "zero"%string) (Some 1%Z) = Ok c /\
    List.length (pc_tensors c) = 8 /\ energies (pc_tensors c) = energy (exQ [2; 3; 2; 3]) /\ energy (exQ [2; 3; 2; 3]) <> kzero.
Proof.
  assert (G : match analyse (Twavedec3 AxNone) (exQ [2; 3; 2; 3]) qO4 (Some "zero"%string) (Some 1%Z) with Ok c => (List.length (pc_tensors c), List.length (pc_items c)) | _ => (0, 0) end = (8, 2)) by (vm_compute; reflexivity).
  destruct (analyse (Twavedec3 AxNone) (exQ [2; 3; 2; 3]) qO4 (Some "zero"%string) (Some 1%Z)) as [c|e] eqn:E.
  - exists c. split; [reflexivity|]. assert (HF : List.length (pc_tensors c) = 8 /\ List.length (pc_items c) = 2).
    { split; congruence. }
    split; [apply HF|]. split.
    + apply (C81_energy (Twavedec3 AxNone) (exQ [2; 3; 2; 3]) qO4 4 (Some 1%Z) c QcK_cancel2 qO4_ok (exQ_wf _)); try discriminate; auto. intros _. rewrite (proj2 HF). lia.
    + intros H. apply (f_equal this) in H. vm_compute in H. discriminate.
  - discriminate.
Qed.
