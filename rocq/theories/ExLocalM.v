(** A concrete case for C69: Daubechies-4 over the reals, 16 samples, two levels; the signal delayed by one sample. *)
From Coq Require Import List Arith ZArith Lia Bool String Reals Lra.
From Verif Require Import Base Sums Tensor TensorFacts Util Accept Plumb Spec Conv1 Spec2 Unified Sparse SpecMat Mat1 MatOrth Examples PropsMat1 LocalM LocalBW PropsLocalM RealLA ExReal ExMat1.
Import ListNotations.
Local Open Scope nat_scope.

Definition exD : tensor RK := mkT (K := RK) f32 [18] (5%R :: dat (exR [16]) ++ [7%R]).
(** coefficient 1 of level 2 of MatrixWavedec (padding mode reflect) is coefficient 2 of level 2 of wavedec (periodic) on the delayed
    signal: all hypotheses of C69_padded_signal hold *)
Theorem ex_C69 method : orth_supported method = true -> exists o o' c c' t t',
  new_mwavedec db2 (Some 2%Z) (AxInt (-1)) method (Some (mode_name Mreflect)) = Ok o /\ mw_call RLA o (exR [16]) = (o', Ok c) /\ levels_in c = 2 /\
  wavedec exD db2 (Some (mode_name Mperiodic)) (Some 2%Z) (-1) = Ok c' /\ levels_in c' = 2 /\
  entry c 2 = PT t /\ entry c' 2 = PT t' /\ get t [1] = get t' [2] /\ get (exR [16]) [3] = 1%R.
Proof.
  intros Hm. pose proof (RLA_ok method Hm) as HLA.
  destruct (proj2 (C40_accepts RLA RK_domain RK_formally_real db2 4 method Mreflect HLA db2_ok db2_independent (Some 2%Z) (-1) (exR [16]) (exR_wf _))) as (o & o' & c & Ho & Hc).
  { split; [reflexivity|]. split; [cbn; lia|]. split; [intros _; cbn; lia|]. lia. }
  destruct (C40_coefficients RLA RK_domain RK_formally_real db2 4 method Mreflect HLA db2_ok db2_independent _ _ o _ o' c (exR_wf _) Ho Hc) as (lev & A & [-> _] & _ & Hcc).
  assert (HwD : wf exD) by (unfold wf, exD, exR; cbn [dat shp]; cbn [List.length]; rewrite app_length, map_length, seq_length; reflexivity).
  assert (Hl : List.length (dec_lo db2) = 4 /\ List.length (dec_hi db2) = 4) by (split; reflexivity).
  assert (Hw : exists c', wavedec exD db2 (Some (mode_name Mperiodic)) (Some 2%Z) (-1) = Ok c' /\ levels_in c' = 2).
  { eexists. split.
    - apply (analyse_ok (Twavedec (-1)) exD db2 Mperiodic 4 (Some 2%Z) [(-1)%Z]); try reflexivity; try apply Hl; try exact HwD; try lia; try discriminate.
      + split; [constructor; [cbn; lia|constructor]|]. cbn. repeat constructor. intros [].
      + change (Forall (levels_ok Mperiodic 4 2) [18]). constructor; [|constructor]. intros i Hi. destruct i as [|[|i]]; [| |lia]; split; apply Nat.leb_le; reflexivity.
    - reflexivity. }
  destruct Hw as (c' & Hw & Hl').
  assert (L2 : levels_in c = 2) by (rewrite Hcc; reflexivity).
  destruct (C69_padded_signal RLA RK_domain RK_formally_real db2 4 db2_ok db2_independent method Mreflect Mperiodic (Some 2%Z) (Some 2%Z) o o' 16 18 (exR [16]) c exD c' HLA (exR_wf _) HwD eq_refl eq_refl Ho Hc Hw 2 1 0) as (t & t' & E & E' & G).
  - rewrite L2. lia.
  - rewrite Hl'. lia.
  - apply Nat.leb_le. reflexivity.
  - apply Nat.leb_le. reflexivity.
  - apply Nat.leb_le. reflexivity.
  - intros p H1 H2. cbn in H1, H2. change (4 / 2) with 2 in *. assert (p = 1 \/ p = 2 \/ p = 3 \/ p = 4 \/ p = 5 \/ p = 6 \/ p = 7 \/ p = 8 \/ p = 9 \/ p = 10) as Hp by lia.
    repeat destruct Hp as [->|Hp]; try subst p; reflexivity.
  - exists o, o', c, c', t, t'. repeat (split; [assumption|]). reflexivity.
Qed.
