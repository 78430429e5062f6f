(** Concrete cases for C66 and C70. *)
From Coq Require Import List Arith ZArith QArith Lia Bool String Ascii Reals.
From Verif Require Import Base Sums Tensor TensorFacts Util Perm Plumb Accept Spec Conv1 PadFacts CoreFacts AnalysisInv Filters Wave1 Lin Examples Props1 Swt SpecSwt PropsSwt Packets SpecPk PacketFacts PacketConv PropsPk PropsNd SpecMat SpecMatN LinAlg Mat1 MatOrth PropsMat1 RealLA ExReal ExMat1 Cwt SpecCwt CwtFacts PropsCwt ExCwt PropsLin PropsBatch PropsBatch2.
Import ListNotations.
Local Open Scope nat_scope.

(** swt over a batch of two signals of length 6 and a packet node, integer filters of length 4 *)
Theorem ex_C66 :
  let x := exT [2; 6] in let y := tmake (ttag x) (shp x) (fun idx => (get x idx * get x idx)%K) in
  swt_input x (AxInt 1) 1 /\ wf y /\ shp y = shp x /\ even_bank exW4 4 /\
  match swt x exW4 (Some 2%Z) (AxInt 1), swt y exW4 (Some 2%Z) (AxInt 1) with
  | Ok cx, Ok cy => List.length (pc_items cx) = 3 /\ swt (tlin (K := ZK) 2%Z 3%Z x y) exW4 (Some 2%Z) (AxInt 1) = Ok (pc_lin (K := ZK) 2%Z 3%Z cx cy)
  | _, _ => False end /\
  match node_at (dec1 exW4 (mode_name Mreflect) 1) ["a"; "d"]%char x ["d"; "a"]%char, node_at (dec1 exW4 (mode_name Mreflect) 1) ["a"; "d"]%char y ["d"; "a"]%char with
  | Ok v, Ok v' => shp v = [2; 3] /\ node_at (dec1 exW4 (mode_name Mreflect) 1) ["a"; "d"]%char (tlin (K := ZK) 2%Z 3%Z x y) ["d"; "a"]%char = Ok (tlin (K := ZK) 2%Z 3%Z v v')
  | _, _ => False end.
Proof.
  cbv zeta. split; [repeat split; vm_compute; try lia; try congruence|]. split; [reflexivity|]. split; [reflexivity|]. split; [repeat split; vm_compute; try lia; try congruence|]. split; vm_compute; auto.
Qed.
(** the boundary transform of an 8 x 3 tensor over the reals *)
Theorem ex_C66_matrix method : orth_supported method = true ->
  exists o ox oy cx cy, new_mwavedec db2 (Some 1%Z) (AxInt 0) method (Some (mode_name Mzero)) = Ok o /\
    let x := exR [8; 3] in let y := tmake (ttag x) (shp x) (fun idx => (get x idx * get x idx)%K) in
    mw_call RLA o x = (ox, Ok cx) /\ mw_call RLA o y = (oy, Ok cy) /\
    snd (mw_call RLA o (tlin (K := RK) 2%R 3%R x y)) = Ok (pc_lin (K := RK) 2%R 3%R cx cy).
Proof.
  intros Hm. pose proof (RLA_ok method Hm) as HLA. set (x := exR [8; 3]). set (y := tmake (ttag x) (shp x) (fun idx => (get x idx * get x idx)%K)).
  assert (Wx : wf x) by apply exR_wf. assert (Wy : wf y) by apply wf_make.
  assert (Hacc : forall t, wf t -> shp t = [8; 3] -> ttag t = ttag x -> exists o o' c, new_mwavedec db2 (Some 1%Z) (AxInt 0) method (Some (mode_name Mzero)) = Ok o /\ mw_call RLA o t = (o', Ok c)).
  { intros t Wt St Tt. apply (C40_accepts RLA RK_domain RK_formally_real db2 4 method Mzero HLA db2_ok db2_independent (Some 1%Z) 0%Z t Wt).
    split; [unfold tdtype; rewrite Tt; reflexivity|]. unfold rank. rewrite St. cbn. split; [lia|]. split; [discriminate|lia]. }
  destruct (Hacc x Wx eq_refl eq_refl) as (o & ox & cx & Ho & Ex). destruct (Hacc y Wy eq_refl eq_refl) as (o2 & oy & cy & Ho2 & Ey). assert (o2 = o) by congruence. subst o2.
  exists o, ox, oy, cx, cy. split; [exact Ho|]. split; [exact Ex|]. split; [exact Ey|].
  apply (C66_matrix_1d RLA RK_domain RK_formally_real db2 4 method Mzero HLA db2_ok db2_independent (Some 1%Z) 0%Z o x y ox oy cx cy); auto.
Qed.
(** complex data, complex wavelet *)
Theorem ex_C66_cwt : exists out out2, cwt CxC ex_data [1; 1 # 2; 1]%Q (WContinuous true) (Approx2 (K := CK) ex_psi ex_x) = Ok out /\
  cwt CxC (tlin (K := CK) (0%R, 1%R) (2%R, 0%R) ex_data ex_data) [1; 1 # 2; 1]%Q (WContinuous true) (Approx2 (K := CK) ex_psi ex_x) = Ok out2 /\ shp out2 = [3; 2; 3].
Proof.
  destruct ex_C46 as (H1 & H2 & H3 & _ & _ & _ & (out & E & S) & _).
  destruct (C66_cwt CxC (WContinuous true) (Approx2 (K := CK) ex_psi ex_x) ex_psi ex_x 1 3 ex_data ex_data [1; 1 # 2; 1]%Q out out (0%R, 1%R) (2%R, 0%R)) as (out2 & E2 & _ & S2 & _); auto.
  - left. reflexivity.
  - discriminate.
  - cbn. lia.
  - cbn. lia.
  - cbn. intuition (subst; reflexivity).
  - exists out, out2. rewrite S2. auto.
Qed.

(** one row of a batch of two signals *)
Theorem ex_C70 :
  let x := exT [2; 6] in
  swt_input x (AxInt 1) 1 /\ even_bank exW4 4 /\ fib_ok [1] [1; 0] (shp x) /\
  match swt x exW4 (Some 2%Z) (AxInt 1) with
  | Ok c => List.length (pc_items c) = 3 /\ swt (fibre [1] [1; 0] x) exW4 (Some 2%Z) (AxInt (-1)) = Ok (pc_map (fibre [1] [1; 0]) c)
  | _ => False end /\
  match node_at (dec1 exW4 (mode_name Mreflect) 1) ["a"; "d"]%char x ["d"; "a"]%char with
  | Ok v => shp v = [2; 3] /\ node_at (dec1 exW4 (mode_name Mreflect) (-1)) ["a"; "d"]%char (fibre [1] [1; 0] x) ["d"; "a"]%char = Ok (fibre [1] [1; 0] v)
  | _ => False end.
Proof.
  cbv zeta. split; [repeat split; vm_compute; try lia; try congruence|]. split; [repeat split; vm_compute; try lia; try congruence|].
  split; [split; [reflexivity|]; intros [|[|d]] Hd Hn; vm_compute in Hd |- *; try lia; exfalso; apply Hn; left; reflexivity|]. split; vm_compute; auto.
Qed.
Theorem ex_C70_matrix method : orth_supported method = true ->
  exists o ox cx o1, new_mwavedec db2 (Some 1%Z) (AxInt 0) method (Some (mode_name Mzero)) = Ok o /\
    let x := exR [8; 3] in mw_call RLA o x = (ox, Ok cx) /\
    new_mwavedec db2 (Some 1%Z) (AxInt (-1)) method (Some (mode_name Mzero)) = Ok o1 /\
    snd (mw_call RLA o1 (fibre [0] [0; 2] x)) = Ok (pc_map (fibre [0] [0; 2]) cx).
Proof.
  intros Hm. pose proof (RLA_ok method Hm) as HLA. set (x := exR [8; 3]). assert (Wx : wf x) by apply exR_wf.
  assert (Hacc : exists o o' c, new_mwavedec db2 (Some 1%Z) (AxInt 0) method (Some (mode_name Mzero)) = Ok o /\ mw_call RLA o x = (o', Ok c)).
  { apply (C40_accepts RLA RK_domain RK_formally_real db2 4 method Mzero HLA db2_ok db2_independent (Some 1%Z) 0%Z x Wx).
    split; [reflexivity|]. cbn. split; [lia|]. split; [discriminate|lia]. }
  destruct Hacc as (o & ox & cx & Ho & Ex).
  destruct (C70_matrix_1d RLA RK_domain RK_formally_real db2 4 method Mzero HLA db2_ok db2_independent (Some 1%Z) 0%Z o x ox cx Wx Ho Ex) as (o1 & Ho1 & H).
  exists o, ox, cx, o1. split; [exact Ho|]. split; [exact Ex|]. split; [exact Ho1|]. apply (H [0; 2]).
  split; [reflexivity|]. intros [|[|d]] Hd Hn; cbn in Hd |- *; try lia; exfalso; apply Hn; left; reflexivity.
Qed.
