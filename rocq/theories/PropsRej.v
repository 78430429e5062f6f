(** C60: what waverec2 and waverec3 (and the separable variants) accept and refuse. *)
From Coq Require Import List Arith ZArith Lia Bool String.
From Verif Require Import Base Sums Tensor TensorFacts Util Perm Plumb Accept Spec Conv1 PadFacts CoreFacts Analysis AnalysisInv PRKernel Synthesis Filters Wave1 Wave1Inv Rec1 Rec1Inv Lin Examples Props1 Conv2 Conv3 Spec2 WaveN RecN Props2 Sep SpecSep SepFacts SepRec SepRec2 SepRec3 PropsSep Unified RecNInv UnifiedRec PropsNd.
Import ListNotations.

Section Rej.
Context {K : CRing}.
Implicit Types x y t lo : tensor K.
Implicit Types w : wavelet K.

(** [agree axes lo ref t]: t has the dtype and device of the approximation, the transformed axes exist in it, it holds as many
    signals (product of the other axes) and its transformed axes have the sizes of [ref] *)
Definition agree (axes : list Z) lo (ref t : tensor K) : Prop :=
  ttag t = ttag lo /\ axes_ok (rank t) axes /\ bsz axes t = bsz axes lo /\ asz axes t = asz axes ref.

Theorem C60_waverec2_rejects_inconsistent (c : pycoeffs K) w L h y : List.length (rec_lo w) = L -> List.length (rec_hi w) = L -> (2 <= L)%nat ->
  waverec2 c w h = Ok y ->
  exists axes lo tups, hint_axes h 2 = Some axes /\ List.length axes = 2%nat /\
    (* one approximation tensor of supported dtype, then one tuple per level *)
    pc_items c = PT lo :: map PTup tups /\ is_dtype_supported (tdtype lo) = true /\ axes_ok (rank lo) axes /\
    (* at least three details per level, and the three that are used agree with each other and with the approximation *)
    Forall (fun l => (3 <= List.length l)%nat /\ Forall (agree axes lo (hd lo l)) (firstn 3 l)) tups /\
    (* sizes: each level has the sizes of the current approximation, the next one 2k+2-L or one less on every axis *)
    sizes_fit L (asz axes lo) (map (fun l => asz axes (hd lo l)) tups).
Proof. intros. eapply waverec2_inv; eassumption. Qed.

Theorem C60_waverec3_rejects_inconsistent (c : pycoeffs K) w L h y : List.length (rec_lo w) = L -> List.length (rec_hi w) = L -> (2 <= L)%nat ->
  waverec3 c w h = Ok y ->
  exists axes lo dicts, hint_axes h 3 = Some axes /\ List.length axes = 3%nat /\
    pc_items c = PT lo :: map PDict dicts /\ is_dtype_supported (tdtype lo) = true /\ axes_ok (rank lo) axes /\
    (* exactly seven entries per level, under the seven keys, all of them agreeing *)
    Forall (fun d => List.length d = 7%nat /\ (forall k, In k keys3 -> exists t, Conv3.dict_get d k = Ok t) /\
      Forall (fun kv => agree axes lo (dfirst lo d) (snd kv)) d) dicts /\
    sizes_fit L (asz axes lo) (map (fun d => asz axes (dfirst lo d)) dicts).
Proof. intros. eapply waverec3_inv; eassumption. Qed.

(** the individual refusals a user meets, in the direction "if ... then it raises" *)
Lemma not_ok_raise {A} (r : result A) : (forall v, r <> Ok v) -> exists e, r = Raise e.
Proof. intros H. destruct r as [v|e]; [destruct (H v eq_refl)|exists e; reflexivity]. Qed.

(** one detail of the waverec2 input with another dtype or device, or another shape than its siblings *)
Theorem C60_waverec2_bad_detail_raises (c : pycoeffs K) w L h lo tups l a b e : List.length (rec_lo w) = L -> List.length (rec_hi w) = L -> (2 <= L)%nat ->
  pc_items c = PT lo :: map PTup tups -> In l tups -> firstn 3 l = [a; b; e] ->
  ttag a <> ttag lo \/ ttag b <> ttag lo \/ ttag e <> ttag lo \/
  (forall axes, hint_axes h 2 = Some axes -> asz axes b <> asz axes a \/ asz axes e <> asz axes a \/ bsz axes a <> bsz axes lo \/ bsz axes b <> bsz axes lo \/ bsz axes e <> bsz axes lo) ->
  exists err, waverec2 c w h = Raise err.
Proof.
  intros H1 H2 HL Hc Hin Hl Hbad. apply not_ok_raise. intros y Hy.
  destruct (waverec2_inv c w L h y H1 H2 HL Hy) as (axes & lo1 & tups1 & Hh & _ & Hc1 & _ & _ & HF & _).
  rewrite Hc in Hc1. injection Hc1 as <- E. assert (tups1 = tups).
  { clear - E. revert tups1 E. induction tups as [|p tups IH]; intros [|q t] E; try discriminate; [reflexivity|]. cbn in E. injection E as <- E. rewrite (IH t); auto. }
  subst tups1. rewrite Forall_forall in HF. destruct (HF l Hin) as [_ HF']. assert (Hhd : hd lo l = a) by (destruct l; [discriminate|]; cbn in Hl; injection Hl as <- _; reflexivity).
  rewrite Hl, Hhd in HF'. inversion HF' as [|? ? (A1 & A2 & A3 & A4) HF2]; subst. inversion HF2 as [|? ? (B1 & B2 & B3 & B4) HF3]; subst. inversion HF3 as [|? ? (D1 & D2 & D3 & D4) _]; subst.
  destruct Hbad as [Hb|[Hb|[Hb|Hb]]]; [congruence..|]. destruct (Hb axes Hh) as [Hb'|[Hb'|[Hb'|[Hb'|Hb']]]]; congruence.
Qed.
(** a detail level whose size is not the one of the approximation *)
Theorem C60_waverec2_wrong_level_raises (c : pycoeffs K) w L h lo l tups axes : List.length (rec_lo w) = L -> List.length (rec_hi w) = L -> (2 <= L)%nat ->
  pc_items c = PT lo :: map PTup (l :: tups) -> hint_axes h 2 = Some axes -> asz axes (hd lo l) <> asz axes lo ->
  exists err, waverec2 c w h = Raise err.
Proof.
  intros H1 H2 HL Hc Hh Hbad. apply not_ok_raise. intros y Hy.
  destruct (waverec2_inv c w L h y H1 H2 HL Hy) as (axes1 & lo1 & tups1 & Hh1 & _ & Hc1 & _ & _ & _ & HS).
  rewrite Hh in Hh1. injection Hh1 as <-. rewrite Hc in Hc1. injection Hc1 as <- E. destruct tups1 as [|l1 tups1]; [discriminate|]. injection E as <- _.
  cbn [map sizes_fit] in HS. destruct HS as [HS _]. auto.
Qed.
(** a missing key, an eighth entry, or a detail of another shape, dtype or device makes waverec3 raise *)
Theorem C60_waverec3_bad_level_raises (c : pycoeffs K) w L h lo dicts d : List.length (rec_lo w) = L -> List.length (rec_hi w) = L -> (2 <= L)%nat ->
  pc_items c = PT lo :: map PDict dicts -> In d dicts ->
  List.length d <> 7%nat \/ (exists k, In k keys3 /\ ~ In k (map fst d)) \/ (exists kv, In kv d /\ ttag (snd kv) <> ttag lo) \/
  (forall axes, hint_axes h 3 = Some axes -> exists kv, In kv d /\ (asz axes (snd kv) <> asz axes (dfirst lo d) \/ bsz axes (snd kv) <> bsz axes lo)) ->
  exists err, waverec3 c w h = Raise err.
Proof.
  intros H1 H2 HL Hc Hin Hbad. apply not_ok_raise. intros y Hy.
  destruct (waverec3_inv c w L h y H1 H2 HL Hy) as (axes & lo1 & dicts1 & Hh & _ & Hc1 & _ & _ & HF & _).
  rewrite Hc in Hc1. injection Hc1 as <- E. assert (dicts1 = dicts).
  { clear - E. revert dicts1 E. induction dicts as [|p dicts IH]; intros [|q t] E; try discriminate; [reflexivity|]. cbn in E. injection E as <- E. rewrite (IH t); auto. }
  subst dicts1. rewrite Forall_forall in HF. destruct (HF d Hin) as (A & B & C). rewrite Forall_forall in C.
  destruct Hbad as [Hb|[(k & Hk & Hb)|[(kv & Hk & Hb)|Hb]]].
  - auto.
  - destruct (B k Hk) as [t Ht]. apply Hb. unfold Conv3.dict_get in Ht. destruct (find _ d) as [[k1 t1]|] eqn:Ef; [|discriminate]. apply find_some in Ef as [Hin1 Ek]. apply String.eqb_eq in Ek. cbn in Ek. subst k1. apply in_map_iff. exists (k, t1). auto.
  - apply C in Hk. tauto.
  - destruct (Hb axes Hh) as (kv & Hk & Hb'). apply C in Hk. tauto.
Qed.
(** the consistent containers are accepted, by waverec2/3 and fswaverec2/3 alike *)
Theorem C60_accepted S lo levels w L axes : wf lo -> is_dtype_supported (tdtype lo) = true ->
  hint_axes (shint S) (sdim S) = Some axes -> List.length axes = sdim S -> axes_ok (rank lo) axes ->
  List.length (rec_lo w) = L -> List.length (rec_hi w) = L -> (2 <= L)%nat ->
  coeffs_fit (sdets S) (map (norm_axis (rank lo)) axes) L lo levels ->
  synthesise S (container S lo levels) w = Ok (recN_spec L (schans S (rec_lo w) (rec_hi w)) (map (norm_axis (rank lo)) axes) lo levels).
Proof. intros. apply (synth_ok S lo levels w L axes); assumption. Qed.
End Rej.

(** ** concrete cases *)
Definition ex2c (k : nat) : pycoeffs ZK := mkPC false [PT (exT [2; 3]); PTup (map (fun _ => exT [2; 3]) (seq 0 k))].
Theorem ex_C60 : match waverec2 (ex2c 3) exW2 AxNone with Ok y => shp y = [4; 6] | Raise _ => False end /\
  match waverec2 (mkPC false [PT (exT [2; 3]); PTup [exT [2; 3]; exT [2; 2]; exT [2; 3]]]) exW2 AxNone with Ok _ => False | Raise _ => True end /\
  match waverec2 (ex2c 2) exW2 AxNone with Ok _ => False | Raise _ => True end.
Proof. vm_compute. repeat split. Qed.
(** Finding: a level with four detail tensors is rejected for a batch of rank 3, but silently cut to three for a single image *)
Theorem C60_extra_detail_refuted : waverec2 (ex2c 4) exW2 AxNone = waverec2 (ex2c 3) exW2 AxNone /\
  match waverec2 (ex2c 4) exW2 AxNone with Ok _ => True | Raise _ => False end /\
  match waverec2 (mkPC false [PT (exT [1; 2; 3]); PTup (map (fun _ => exT [1; 2; 3]) (seq 0 4))]) exW2 AxNone with Ok _ => False | Raise _ => True end.
Proof. vm_compute. repeat split. Qed.
(** Finding: fswaverec2 accepts an approximation larger than its details and silently drops the surplus rows and columns; waverec2 raises *)
Definition ex_crop : pycoeffs ZK := mkPC false [PT (exT [5; 4]); PDict [("ad", exT [2; 3]); ("da", exT [2; 3]); ("dd", exT [2; 3])]%string].
Theorem C60_fswaverec_crops_refuted : match fswaverec2 ex_crop exW2 AxNone with Ok y => shp y = [4; 6] | Raise _ => False end /\
  match waverec2 (mkPC false [PT (exT [5; 4]); PTup [exT [2; 3]; exT [2; 3]; exT [2; 3]]]) exW2 AxNone with Ok _ => False | Raise _ => True end.
Proof. vm_compute. repeat split. Qed.

(** C59: all hypotheses met: periodic wavedec2 on two images, then both directions computed *)
Definition exY (s : list nat) : tensor ZK := mkT (K := ZK) f32 s (map (fun i => Z.of_nat ((5 * i + 2) mod 7)) (seq 0 (prodl s))).
Theorem ex_C59 : match wavedec2 (exT [2; 5; 6]) exW4 (Some "symmetric"%string) (Some 1%Z) AxNone, wavedec2 (exY [2; 5; 6]) exW4 (Some "symmetric"%string) (Some 1%Z) AxNone with
  | Ok c, Ok c' => wavedec2 (tlin (K := ZK) 3%Z (-2)%Z (exT [2; 5; 6]) (exY [2; 5; 6])) exW4 (Some "symmetric"%string) (Some 1%Z) AxNone = Ok (pc_lin (K := ZK) 3%Z (-2)%Z c c') /\
     match waverec2 c exW4 AxNone, waverec2 c' exW4 AxNone with
     | Ok y, Ok y' => waverec2 (pc_lin (K := ZK) 3%Z (-2)%Z c c') exW4 AxNone = Ok (tlin (K := ZK) 3%Z (-2)%Z y y') /\ dat y <> dat y'
     | _, _ => False end
  | _, _ => False end.
Proof. vm_compute. repeat split. discriminate. Qed.
(** C61: image 1 of a batch of two, transformed along axes (2, 0) *)
Theorem ex_C61 : match wavedec2 (exT [5; 2; 6]) exW4 (Some "reflect"%string) (Some 1%Z) (AxSeq [2%Z; 0%Z]) with
  | Ok c => wavedec2 (fibre [2; 0] [0; 1; 0] (exT [5; 2; 6])) exW4 (Some "reflect"%string) (Some 1%Z) AxNone = Ok (pc_map (fibre [2; 0] [0; 1; 0]) c) /\
     match waverec2 c exW4 (AxSeq [2%Z; 0%Z]) with
     | Ok y => waverec2 (pc_map (fibre [2; 0] [0; 1; 0]) c) exW4 AxNone = Ok (fibre [2; 0] [0; 1; 0] y) /\ shp y = [6; 2; 6]
     | Raise _ => False end
  | Raise _ => False end.
Proof. vm_compute. repeat split. Qed.
