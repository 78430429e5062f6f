(** Concrete cases for C85. *)
From Coq Require Import List Arith ZArith QArith Qcanon Lia Bool String Reals Lra.
From Verif Require Import Base Sums Tensor TensorFacts Util Perm Plumb Accept Spec Spec2 Lin Examples Conv1 Conv2 Conv3 Sep Unified UnifiedRec PropsSwt SpecMat PropsMat1 RealLA ExReal ExMat1 PropsLocal PropsAdjoint Props1 ExAdjoint ExFlip PropsBest.
Import ListNotations.
Local Open Scope nat_scope.

(** rational four-tap bank, a batch of 3 x 4 images, all coefficients squared *)
Definition qSq (t : tensor QcK) : tensor QcK := tmake (ttag t) (shp t) (fun i => kmul (get t i) (get t i)).
Theorem ex_C85_pythagoras : exists cx, analyse (Twavedec2 AxNone) (exQ [2; 3; 4]) qO4 (Some "zero"%string) (Some 2%Z) = Ok cx /\
  laid_out_like cx (pc_map qSq cx) /\
  exists y, inverse (Twavedec2 AxNone) (pc_map qSq cx) qO4 = Ok y /\
    kadd (dists (pc_tensors cx) (pc_tensors (pc_map qSq cx))) (energy_on (exQ [2; 3; 4]) y) = kadd (dist2 (exQ [2; 3; 4]) y) (inners (pc_tensors (pc_map qSq cx)) (pc_tensors (pc_map qSq cx))).
Proof.
  assert (G : exGood 3 (analyse (Twavedec2 AxNone) (exQ [2; 3; 4]) qO4 (Some "zero"%string) (Some 2%Z)) = true) by (vm_compute; reflexivity).
  destruct (analyse (Twavedec2 AxNone) (exQ [2; 3; 4]) qO4 (Some "zero"%string) (Some 2%Z)) as [cx|e] eqn:E; [|discriminate].
  exists cx. split; [reflexivity|]. destruct (exGood_ok _ _ G) as [Gn GF].
  assert (Hl : laid_out_like cx (pc_map qSq cx)).
  { apply laid_out_map; [|exact GF]. intros t. split; [apply wf_make|]. split; [apply shp_make|reflexivity]. }
  split; [exact Hl|].
  destruct (C85_pythagoras (Twavedec2 AxNone) (exQ [2; 3; 4]) qO4 4 (Some 2%Z) cx (pc_map qSq cx) QcK_cancel2 qO4_ok (exQ_wf _) ltac:(discriminate) ltac:(discriminate) E Hl) as (y & Ey & _ & Hz).
  exists y. split; [exact Ey|]. destruct (Hz (exQ [2; 3; 4]) (exQ_wf _) eq_refl eq_refl) as (cz & Ez & D). rewrite E in Ez. apply ok_inj in Ez. subst cz. exact D.
Qed.

(** Daubechies 2 over the reals: hard thresholding of all coefficients of a 5 x 6 image *)
Definition hardR (t : tensor RK) : tensor RK := tmake (ttag t) (shp t) (fun i => if Rle_dec 10 (Rabs (get t i)) then get t i else 0%R).
Theorem ex_C85_least_squares : exists cx, analyse (Tfswavedec2 AxNone) (exR [2; 5; 6]) db2 (Some "zero"%string) (Some 1%Z) = Ok cx /\
  laid_out_like cx (pc_map hardR cx) /\
  exists y cb, inverse (Tfswavedec2 AxNone) (pc_map hardR cx) db2 = Ok y /\
    analyse (Tfswavedec2 AxNone) (tmake f32 [2; 5; 6] (get y)) db2 (Some "zero"%string) (Some 1%Z) = Ok cb /\
    (dists (pc_tensors cb) (pc_tensors (pc_map hardR cx)) <= dists (pc_tensors cx) (pc_tensors (pc_map hardR cx)))%R.
Proof.
  pose proof (analyse_ok (Tfswavedec2 AxNone) (exR [2; 5; 6]) db2 Mzero 4 (Some 1%Z) [-2; -1]%Z) as G. cbv zeta in G.
  assert (E : exists cx, analyse (Tfswavedec2 AxNone) (exR [2; 5; 6]) db2 (Some "zero"%string) (Some 1%Z) = Ok cx /\ Forall (fun v => v <> POther) (pc_items cx)).
  { eexists. split; [apply G|].
    - apply exR_wf.
    - reflexivity.
    - reflexivity.
    - reflexivity.
    - split; [repeat constructor; cbn; lia|]. cbn. repeat constructor; cbn; intuition discriminate.
    - reflexivity.
    - reflexivity.
    - lia.
    - reflexivity.
    - discriminate.
    - discriminate.
    - cbn. repeat constructor; intros [|j] Hj; cbn in *; lia.
    - unfold tspec. cbn [pc_items]. constructor; [discriminate|]. apply Forall_forall. intros v Hv. apply in_map_iff in Hv as (j & <- & _). discriminate. }
  destruct E as (cx & E & HF). exists cx. split; [exact E|].
  assert (Hl : laid_out_like cx (pc_map hardR cx)).
  { apply laid_out_map; [|exact HF]. intros t. split; [apply wf_make|]. split; [apply shp_make|reflexivity]. }
  split; [exact Hl|].
  destruct (C85_least_squares (Tfswavedec2 AxNone) (exR [2; 5; 6]) db2 4 (Some 1%Z) cx (pc_map hardR cx) db2_ok (exR_wf _) ltac:(discriminate) ltac:(discriminate) E Hl) as (y & cb & Ey & _ & Eb & Hz & _).
  exists y, cb. split; [exact Ey|]. split; [exact Eb|].
  destruct (Hz (exR [2; 5; 6]) (exR_wf _) eq_refl eq_refl) as (cz & Ez & Hle & _). rewrite E in Ez. apply ok_inj in Ez. subst cz. exact Hle.
Qed.
