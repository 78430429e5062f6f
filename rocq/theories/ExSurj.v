(** Concrete cases for C64 and C65 (Daubechies-4 over the reals). *)
From Coq Require Import List Arith ZArith Lia Bool String Reals Lra.
From Verif Require Import Base Sums Tensor TensorFacts Util Accept Plumb Spec Conv2 Sep Sparse SparseFacts SpecMat SpecMatN Mat1 MatN MatOrth Examples PropsMat1 MatNFacts MatNLoop PropsMatN PropsMatN2 PropsMatNon EnergyN Surj PropsSurj Packets RealLA ExReal ExMat1 ExMatN.
Import ListNotations.
Local Open Scope nat_scope.

(** C64: two levels of an 8 x 12 image (batch of two), separable and not; two levels of an 8 x 8 x 16 volume *)
Theorem ex_C64 method : orth_supported method = true ->
  (exists o o' c, new_mwavedecn 2 db2 (Some 2%Z) (AxSeq [-1; 0]%Z) method (Some "symmetric"%string) true = Ok o /\ mw2_call RLA o (exR [8; 2; 12]) = (o', Ok c) /\
     List.length (pc_items c) = 3 /\ energies (pc_tensors c) = energy (exR [8; 2; 12])) /\
  (exists o o' c, new_mwavedecn 2 db2 (Some 2%Z) (AxSeq [-2; -1]%Z) method (Some "zero"%string) false = Ok o /\ mw2_call RLA o (exR [2; 8; 12]) = (o', Ok c) /\
     List.length (pc_items c) = 3 /\ energies (pc_tensors c) = energy (exR [2; 8; 12])) /\
  (exists o o' c, new_mwavedecn 3 db2 (Some 2%Z) (AxSeq [-3; -2; -1]%Z) method (Some "zero"%string) true = Ok o /\ mw3_call RLA o (exR [8; 8; 16]) = (o', Ok c) /\
     List.length (pc_items c) = 3 /\ energies (pc_tensors c) = energy (exR [8; 8; 16])).
Proof.
  intros Hm. pose proof (RLA_ok method Hm) as HLA. split; [|split].
  - destruct (proj2 (C43_accepts RLA RK_domain RK_formally_real db2 4 method Msymmetric HLA db2_ok db2_independent (Some 2%Z) [-1; 0]%Z (exR [8; 2; 12]) (exR_wf _) eq_refl)) as (o & o' & c & Ho & Hc).
    { split; [reflexivity|]. split; [split; [repeat constructor; cbn; lia|]|]. { cbn. repeat constructor; cbn; intuition lia. }
      exists 2%Z. split; [split; [reflexivity|lia]|]. right. intros d Hd _. cbn in Hd. do 3 (destruct d as [|d]; [cbn; lia|]). lia. }
    exists o, o', c. split; [exact Ho|]. split; [exact Hc|].
    destruct (C43_coefficients RLA RK_domain RK_formally_real db2 4 method Msymmetric HLA db2_ok db2_independent _ _ o _ o' c (exR_wf _) Ho Hc) as (lev & A & [-> _] & _ & Hcc).
    assert (Hlen : List.length (pc_items c) = 3) by (rewrite Hcc; reflexivity). split; [exact Hlen|].
    apply (C64_energy_2d RLA RK_domain RK_formally_real db2 4 method Msymmetric HLA db2_ok db2_independent _ _ o _ o' c (exR_wf _) Ho Hc).
    rewrite Hlen. cbn. constructor; [exists 3; reflexivity|]. constructor; [exists 2; reflexivity|constructor].
  - destruct (ex_non 2%Z [2; 8; 12] 2 8 12 method Hm eq_refl) as (o & o' & c & Ho & Hc & Hlen); [lia|lia|apply Nat.leb_le; reflexivity|]. change (bwn_levels (Z.to_nat 2) 4 [8; 12]) with 2 in Hlen.
    exists o, o', c. split; [exact Ho|]. split; [exact Hc|]. split; [exact Hlen|].
    apply (C64_energy_2d_nonseparable RLA RK_domain RK_formally_real db2 4 method Mzero HLA db2_ok db2_independent _ _ o _ o' c (exR_wf _) Ho Hc).
    rewrite Hlen. cbn. constructor; [exists 2; reflexivity|]. constructor; [exists 3; reflexivity|constructor].
  - destruct (proj2 (C45_accepts RLA RK_domain RK_formally_real db2 4 method Mzero HLA db2_ok db2_independent (Some 2%Z) [-3; -2; -1]%Z (exR [8; 8; 16]) (exR_wf _) eq_refl)) as (o & o' & c & Ho & Hc).
    { split; [reflexivity|]. split; [split; [repeat constructor; cbn; lia|]|lia]. cbn. repeat constructor; cbn; intuition lia. }
    exists o, o', c. split; [exact Ho|]. split; [exact Hc|].
    destruct (C45_coefficients RLA RK_domain RK_formally_real db2 4 method Mzero HLA db2_ok db2_independent _ _ o _ o' c (exR_wf _) Ho Hc) as (lev & A & [-> _] & _ & Hcc).
    assert (Hlen : List.length (pc_items c) = 3) by (rewrite Hcc; reflexivity). split; [exact Hlen|].
    apply (C64_energy_3d RLA RK_domain RK_formally_real db2 4 method Mzero HLA db2_ok db2_independent _ _ o _ o' c (exR_wf _) Ho Hc).
    rewrite Hlen. cbn. constructor; [exists 2; reflexivity|]. constructor; [exists 2; reflexivity|]. constructor; [exists 4; reflexivity|constructor].
Qed.
(** C65: arbitrary coefficients of two levels of a signal of length 8 (axis 0 of 8 x 3) and of an 8 x 12 image (batch of two) *)
Theorem ex_C65 method : orth_supported method = true ->
  (exists r o x o', new_mwaverec db2 (AxInt 0) method = Ok r /\ new_mwavedec db2 (Some 2%Z) (AxInt 0) method (Some "zero"%string) = Ok o /\
     let c := map PT [exR [2; 3]; exR [2; 3]; exR [4; 3]] in
     snd (mr_call RLA r c) = Ok x /\ shp x = [8; 3] /\ mw_call RLA o x = (o', Ok (mkPC true c))) /\
  (exists r o x o', new_mwaverecn 2 db2 (AxSeq [-2; -1]%Z) method true = Ok r /\ new_mwavedecn 2 db2 (Some 2%Z) (AxSeq [-2; -1]%Z) method (Some "zero"%string) true = Ok o /\
     let c := [PT (exR [2; 2; 3]); PTup (repeat (exR [2; 2; 3]) 3); PTup (repeat (exR [2; 4; 6]) 3)] in
     snd (mr2_call RLA r c) = Ok x /\ shp x = [2; 8; 12] /\ mw2_call RLA o x = (o', Ok (mkPC false c))).
Proof.
  intros Hm. pose proof (RLA_ok method Hm) as HLA. split.
  - assert (Hr : new_mwaverec db2 (AxInt 0) method = Ok (mkMR db2 [0%Z] method [] None None false [])) by (unfold new_mwaverec, ensure_axes; cbn; rewrite Hm; reflexivity).
    assert (Ho : new_mwavedec db2 (Some 2%Z) (AxInt 0) method (Some "zero"%string) = Ok (mkMW db2 (Some 2%Z) 0 method (Some "zero"%string) None [] [] false [])) by (unfold new_mwavedec, ensure_axes; cbn; rewrite Hm; reflexivity).
    destruct (C65_onto_1d RLA RK_domain RK_formally_real db2 4 method Mzero HLA db2_ok db2_independent 0 _ f32 [8; 3] 8 (exR [2; 3]) [exR [2; 3]; exR [4; 3]] Hr) as (x & E1 & _ & _ & E2 & E3).
    + cbn; lia.
    + reflexivity.
    + cbn; lia.
    + apply Nat.leb_le. reflexivity.
    + split; [repeat constructor; exists 2; reflexivity|]. split; [apply exR_wf|]. split; [reflexivity|]. split; [reflexivity|].
      intros i Hi. destruct i as [|[|i]]; [| |cbn in Hi; lia]; (split; [reflexivity|]; intros d [<-|[]]; split; [apply exR_wf|split; reflexivity]).
    + destruct (E3 _ Ho) as [o' E4]. eauto 10.
  - assert (Hr : new_mwaverecn 2 db2 (AxSeq [-2; -1]%Z) method true = Ok (mkMRN db2 [-2; -1]%Z method true [] None None false)) by (unfold new_mwaverecn, ensure_axes; cbn; rewrite Hm; reflexivity).
    assert (Ho : new_mwavedecn 2 db2 (Some 2%Z) (AxSeq [-2; -1]%Z) method (Some "zero"%string) true = Ok (mkMWN db2 (Some 2%Z) [-2; -1]%Z method (Some "zero"%string) true None [] [] false [])) by (unfold new_mwavedecn, ensure_axes; cbn; rewrite Hm; reflexivity).
    destruct (C65_onto_2d RLA RK_domain RK_formally_real db2 4 method Mzero HLA db2_ok db2_independent [-2; -1]%Z _ f32 [2; 8; 12] [8; 12] (exR [2; 2; 3]) [repeat (exR [2; 2; 3]) 3; repeat (exR [2; 4; 6]) 3] Hr) as (x & E1 & _ & _ & E2 & E3).
    + split; [repeat constructor; cbn; lia|]. cbn. repeat constructor; cbn; intuition lia.
    + reflexivity.
    + reflexivity.
    + intros d Hd _. cbn in Hd. do 3 (destruct d as [|d]; [cbn; lia|]). lia.
    + cbn; lia.
    + repeat constructor.
    + split; [repeat constructor; [exists 2; reflexivity|exists 3; reflexivity]|]. split; [apply exR_wf|]. split; [reflexivity|]. split; [reflexivity|].
      intros i Hi. destruct i as [|[|i]]; [| |cbn in Hi; lia]; (split; [reflexivity|]; intros d Hd; apply repeat_spec in Hd; subst d; split; [apply exR_wf|split; reflexivity]).
    + destruct (E3 _ Ho) as [o' E4]. eauto 10.
Qed.
