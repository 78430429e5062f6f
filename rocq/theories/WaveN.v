(** wavedec2 / wavedec3: what they return and when. *)
From Coq Require Import List Arith ZArith Lia Bool String.
From Coq Require Import ZifyNat ZifyBool.
From Verif Require Import Base Sums Tensor TensorFacts Util Perm Plumb Accept Spec Spec2 Conv1 Conv2 Conv3 PadFacts CoreFacts Analysis AnalysisInv PRKernel Synthesis Filters Wave1 Wave1Inv.
Import ListNotations.
Ltac Zify.zify_post_hook ::= Z.div_mod_to_equations.

Section WN.
Context {K : CRing}.
Add Ring Kring : (cr_th K).
Implicit Types t u x y : tensor K.
Implicit Types lo hi : list K.
Implicit Types w : wavelet K.

Definition sizes_pos (nax s : list nat) : Prop := Forall (fun n => 0 < n) (gather nax 0 s).

Lemma fwt_pad_n_ok D x nax m w L : get_len w = L -> List.length nax = D ->
  fwt_pad_n D (unsqueeze (pre_t nax x) 1) w (Some (mode_name m)) None
  = pad_dispatch (unsqueeze (pre_t nax x) 1) (rev (map (fun n => get_pad n L) (gather nax 0 (shp x)))) (emode m).
Proof.
  intros HL Hn. unfold fwt_pad_n. rewrite translate_mode. cbn [rbind]. rewrite (get_padding_ok x nax D w L HL Hn). reflexivity.
Qed.

(** one analysis step: both outcomes *)
Lemma analysis_step_cases D w m L nax x filt g : 1 <= D <= 3 -> List.length nax = D -> wf x -> good_axes (rank x) nax ->
  List.length (dec_lo w) = L -> List.length (dec_hi w) = L -> 2 <= L -> Nat.even L = true ->
  construct_nd_filt (create_tensor (dec_lo w) true g) (create_tensor (dec_hi w) true g) D = Ok filt ->
  match analysis_step D w (Some (mode_name m)) filt (unsqueeze (pre_t nax x) 1) with
  | Ok l => adm_axes m L nax (shp x) /\
            l = map (fun c => unsqueeze (pre_t nax (dwt_axes (bsels (dec_lo w) (dec_hi w) (chanD D c)) m nax x)) 1) (seq 0 (2 ^ D))
  | Raise e => ~ adm_axes m L nax (shp x) /\ (sizes_pos nax (shp x) -> e = RuntimeError)
  end.
Proof.
  intros HD Hn Hw Hg H1 H2 HL He Hf. unfold analysis_step. rewrite (fwt_pad_n_ok D x nax m w L) by assumption.
  destruct (pad_dispatch _ _ _) as [p|e] eqn:Ep.
  - cbn [rbind]. destruct (conv_nd 2 1 p filt) as [res|e] eqn:Ec.
    + cbn [rbind]. assert (Hadm : adm_axes m L nax (shp x)).
      { apply (dec_step_inv D (dec_lo w) (dec_hi w) m L nax x filt g true p res); auto. }
      split; [exact Hadm|].
      destruct (dec_step D (dec_lo w) (dec_hi w) m L nax x filt g true) as (p' & res' & E1 & E2 & E3 & E4); auto.
      rewrite Ep in E1. injection E1 as <-. rewrite Ec in E2. injection E2 as <-. exact E4.
    + cbn [rbind]. split; [|intros _; apply (conv_err _ _ _ _ _ Ec)].
      intros Hadm. destruct (dec_step D (dec_lo w) (dec_hi w) m L nax x filt g true) as (p' & res' & E1 & E2 & E3 & E4); auto.
      rewrite Ep in E1. injection E1 as <-. congruence.
  - cbn [rbind]. split; [|intros Hpos; apply (dec_step_err D m L nax x e); auto].
    intros Hadm. destruct (dec_step D (dec_lo w) (dec_hi w) m L nax x filt g true) as (p' & res' & E1 & E2 & E3 & E4); auto.
    congruence.
Qed.

(** passing to the next level *)
Lemma levels_axes_S m L J nax x lo : List.length lo = L -> good_axes (rank x) nax ->
  levels_axes m L (S J) nax (shp x) <->
  adm_axes m L nax (shp x) /\ levels_axes m L J nax (shp (dwt_axes (repeat lo (List.length nax)) m nax x)).
Proof.
  intros HL Hg. unfold levels_axes, adm_axes. rewrite (dwt_axes_sizes _ m L); auto using repeat_length, Forall_repeat.
  rewrite Forall_map, !Forall_forall. split.
  - intros H. split.
    + intros n Hn. apply (H n Hn 0). lia.
    + intros n Hn j Hj. apply (H n Hn (S j)). lia.
  - intros [A B] n Hn [|j] Hj; [apply A; exact Hn|]. apply (B n Hn j). lia.
Qed.
Lemma sizes_pos_S m L nax x lo : List.length lo = L -> 2 <= L -> good_axes (rank x) nax -> sizes_pos nax (shp x) ->
  sizes_pos nax (shp (dwt_axes (K := K) (repeat lo (List.length nax)) m nax x)).
Proof.
  intros HL H2 Hg H. unfold sizes_pos in *. rewrite (dwt_axes_sizes _ m L); auto using repeat_length, Forall_repeat.
  apply Forall_map. eapply Forall_impl; [|exact H]. intros n Hn. apply dwt_len_pos; assumption.
Qed.

Lemma detail_S lo fs m nax j x : 1 <= j ->
  detail lo fs m nax (S j) x = detail lo fs m nax j (dwt_axes (K := K) (repeat lo (List.length nax)) m nax x).
Proof. intros Hj. unfold detail. replace (S j - 1) with (S (j - 1)) by lia. rewrite approx_S'. reflexivity. Qed.

Notation pre_v nax := (pv_map (pre_t nax)).

Lemma wavedec2_loop_cases J : forall w m L nax x filt acc, wf x -> List.length nax = 2 -> good_axes (rank x) nax ->
  List.length (dec_lo w) = L -> List.length (dec_hi w) = L -> 2 <= L -> Nat.even L = true ->
  construct_nd_filt (create_tensor (dec_lo w) true (ttag x)) (create_tensor (dec_hi w) true (ttag x)) 2 = Ok filt ->
  match wavedec2_loop J w (Some (mode_name m)) filt (unsqueeze (pre_t nax x) 1) acc with
  | Ok r => levels_axes m L J nax (shp x) /\
      r = (unsqueeze (pre_t nax (approx (dec_lo w) m nax J x)) 1,
           acc ++ map (fun j => pre_v nax (details2 (dec_lo w) (dec_hi w) m nax j x)) (seq 1 J))
  | Raise e => ~ levels_axes m L J nax (shp x) /\ (sizes_pos nax (shp x) -> e = RuntimeError)
  end.
Proof.
  induction J as [|J IH]; intros w m L nax x filt acc Hw Hn Hg H1 H2 HL He Hf.
  - cbn. split; [|rewrite app_nil_r; reflexivity]. unfold levels_axes. apply Forall_forall. intros n _ j Hj. lia.
  - cbn [wavedec2_loop]. pose proof (analysis_step_cases 2 w m L nax x filt (ttag x) ltac:(lia) Hn Hw Hg H1 H2 HL He Hf) as Hs.
    pose proof (levels_axes_S m L J nax x (dec_lo w) H1 Hg) as Hiff.
    destruct (analysis_step 2 w (Some (mode_name m)) filt _) as [l|e].
    2:{ cbn [rbind]. split; [tauto|apply Hs]. }
    destruct Hs as [Hadm ->]. cbn [rbind map seq Nat.pow Nat.mul Nat.add]. rewrite !squeeze_unsq_pre.
    set (x1 := dwt_axes (repeat (dec_lo w) (List.length nax)) m nax x).
    assert (Ex1 : dwt_axes (bsels (dec_lo w) (dec_hi w) (chanD 2 0)) m nax x = x1) by (unfold x1; rewrite Hn; reflexivity).
    rewrite Ex1.
    match goal with |- context [wavedec2_loop J w _ filt _ ?a] => specialize (IH w m L nax x1 filt a) end.
    assert (Hr1 : rank x1 = rank x) by apply rank_along.
    specialize (IH (wf_make _ _ _) Hn). rewrite Hr1 in IH. specialize (IH Hg H1 H2 HL He Hf).
    destruct (wavedec2_loop J w _ filt _ _) as [r|e].
    + destruct IH as [IH1 ->]. split; [apply Hiff; auto|]. rewrite (approx_S' (dec_lo w) m nax J x). fold x1. f_equal. rewrite <- app_assoc. f_equal.
      cbn [app seq map]. apply (f_equal2 cons); [unfold details2, detail; reflexivity|].
      rewrite <- (seq_shift J 1), map_map. apply map_ext_in. intros j Hj. apply in_seq in Hj. unfold details2.
      rewrite !detail_S by lia. reflexivity.
    + destruct IH as [IH1 IH2]. split; [tauto|]. intros Hp. apply IH2. apply (sizes_pos_S m L); assumption.
Qed.

Lemma wavedec3_loop_cases J : forall w m L nax x u filt acc, wf x -> List.length nax = 3 -> good_axes (rank x) nax ->
  List.length (dec_lo w) = L -> List.length (dec_hi w) = L -> 2 <= L -> Nat.even L = true ->
  construct_nd_filt (create_tensor (dec_lo w) true (ttag x)) (create_tensor (dec_hi w) true (ttag x)) 3 = Ok filt ->
  (u = unsqueeze (pre_t nax x) 1 \/ u = pre_t nax x) ->
  match wavedec3_loop J w (Some (mode_name m)) filt u acc with
  | Ok r => levels_axes m L J nax (shp x) /\
      r = (match J with O => u | _ => pre_t nax (approx (dec_lo w) m nax J x) end,
           acc ++ map (fun j => pre_v nax (details3 (dec_lo w) (dec_hi w) m nax j x)) (seq 1 J))
  | Raise e => ~ levels_axes m L J nax (shp x) /\ (sizes_pos nax (shp x) -> e = RuntimeError)
  end.
Proof.
  induction J as [|J IH]; intros w m L nax x u filt acc Hw Hn Hg H1 H2 HL He Hf Hu.
  - cbn. split; [|rewrite app_nil_r; reflexivity]. unfold levels_axes. apply Forall_forall. intros n _ j Hj. lia.
  - cbn [wavedec3_loop].
    replace (if Nat.eqb (rank u) 4 then unsqueeze u 1 else u) with (unsqueeze (pre_t nax x) 1).
    2:{ assert (Hrp : rank (pre_t nax x) = 4) by (unfold rank, pre_t; cbn [shp List.length]; rewrite gather_length, Hn; reflexivity).
        destruct Hu as [->| ->].
        - replace (rank (unsqueeze (pre_t nax x) 1)) with 5; [reflexivity|]. unfold rank, unsqueeze. cbn [shp].
          rewrite insertn_length; [|unfold rank in Hrp; lia]. unfold rank in Hrp. rewrite Hrp. reflexivity.
        - rewrite Hrp. reflexivity. }
    pose proof (analysis_step_cases 3 w m L nax x filt (ttag x) ltac:(lia) Hn Hw Hg H1 H2 HL He Hf) as Hs.
    pose proof (levels_axes_S m L J nax x (dec_lo w) H1 Hg) as Hiff.
    destruct (analysis_step 3 w (Some (mode_name m)) filt _) as [l|e].
    2:{ cbn [rbind]. split; [tauto|apply Hs]. }
    destruct Hs as [Hadm ->]. cbn [rbind map seq Nat.pow Nat.mul Nat.add]. rewrite !squeeze_unsq_pre.
    set (x1 := dwt_axes (repeat (dec_lo w) (List.length nax)) m nax x).
    assert (Ex1 : dwt_axes (bsels (dec_lo w) (dec_hi w) (chanD 3 0)) m nax x = x1) by (unfold x1; rewrite Hn; reflexivity).
    rewrite Ex1.
    match goal with |- context [wavedec3_loop J w _ filt _ ?a] => specialize (IH w m L nax x1 (pre_t nax x1) filt a) end.
    assert (Hr1 : rank x1 = rank x) by apply rank_along.
    specialize (IH (wf_make _ _ _) Hn). rewrite Hr1 in IH. specialize (IH Hg H1 H2 HL He Hf (or_intror eq_refl)).
    destruct (wavedec3_loop J w _ filt _ _) as [r|e].
    + destruct IH as [IH1 ->]. split; [apply Hiff; auto|]. rewrite (approx_S' (dec_lo w) m nax J x). fold x1. f_equal.
      * destruct J; reflexivity.
      * rewrite <- app_assoc. f_equal.
        cbn [app seq map]. apply (f_equal2 cons); [unfold details3, detail; reflexivity|].
        rewrite <- (seq_shift J 1), map_map. apply map_ext_in. intros j Hj. apply in_seq in Hj. unfold details3.
        cbn [map keys3]. rewrite !detail_S by lia. reflexivity.
    + destruct IH as [IH1 IH2]. split; [tauto|]. intros Hp. apply IH2. apply (sizes_pos_S m L); assumption.
Qed.

(** * postprocessing a container of preprocessed tensors *)
Lemma post_container c N h axes r F bk : pc_regular c -> 0 < N -> hint_axes h N = Some axes -> List.length axes = N -> axes_ok r axes ->
  List.length F = r - N -> List.length bk = N ->
  (forall t, In t (pc_tensors c) -> wf t /\ rank t = r /\ fsz (map (norm_axis r) axes) (shp t) = F) ->
  postprocess_coeffs (pc_map (pre_t (map (norm_axis r) axes)) c) N (F ++ bk) h = Ok (c : pycoeffs K).
Proof.
  intros Hreg HN Hh Hla Hax HF Hbk Hall. set (nax := map (norm_axis r) axes) in *.
  pose proof (good_axes_ok _ _ Hax) as Hg. fold nax in Hg.
  rewrite (postprocess_coeffs_ok _ N h axes r F bk); auto using pc_map_regular.
  - rewrite pc_map_map. f_equal. apply pc_map_id. intros t Ht. destruct (Hall t Ht) as (T1 & T2 & T3). fold nax.
    rewrite <- T3. apply post_pre; [exact T1|rewrite T2; exact Hg].
  - intros t Ht. rewrite pc_map_tensors in Ht. apply in_map_iff in Ht as (y & <- & Hy). destruct (Hall y Hy) as (T1 & T2 & T3).
    split; [apply pre_t_wf; rewrite T2; exact Hg|]. eexists. split; [cbn [pre_t shp]; rewrite T3; reflexivity|].
    rewrite gather_length. unfold nax. rewrite map_length. exact Hla.
Qed.

(** * number of levels *)
Lemma dwt_max_level_val n L : 2 <= L -> dwt_max_level n L = Ok (default_level L n).
Proof. intros HL. unfold dwt_max_level, default_level. destruct (Nat.ltb_spec L 2); [lia|]. destruct (Nat.ltb n (L - 1)); reflexivity. Qed.
Lemma dwtn_max_level_val n ns L : 2 <= L -> dwtn_max_level (n :: ns) L = Ok (num_levels None L (n :: ns)).
Proof.
  intros HL. unfold dwtn_max_level. rewrite (rmap_ok _ (default_level L)) by (intros a _; apply dwt_max_level_val; exact HL).
  cbn [rbind map]. reflexivity.
Qed.
Lemma fold_min_comm l : forall a b : nat, fold_left Nat.min l (Nat.min a b) = Nat.min a (fold_left Nat.min l b).
Proof. induction l as [|c l IH]; intros a b; cbn; [reflexivity|]. rewrite <- IH. f_equal. lia. Qed.

Lemma default_level_ok m L n J : 2 <= L -> Nat.even L = true -> 0 < n -> J <= default_level L n -> levels_ok m L J n.
Proof.
  intros HL He Hn HJ. assert (H : levels_ok m L (default_level L n) n).
  { destruct (dwt_max_level_pow n L (default_level L n) HL (dwt_max_level_val n L HL)) as [E|E].
    - rewrite E. intros j Hj. lia.
    - apply levels_ok_pow; auto. }
  intros j Hj. apply H. lia.
Qed.

(** the default number of levels is admissible on every axis *)
Lemma num_levels_default_ok m L ns : 2 <= L -> Nat.even L = true -> Forall (fun n => 0 < n) ns ->
  levels_all m L (num_levels None L ns) ns.
Proof.
  intros HL He Hpos. unfold levels_all. apply Forall_forall. intros n Hn. rewrite Forall_forall in Hpos.
  apply default_level_ok; auto. unfold num_levels. destruct ns as [|a r]; [destruct Hn|].
  assert (G : forall l b, fold_left Nat.min l b <= b /\ forall z, In z l -> fold_left Nat.min l b <= z).
  { induction l as [|c l IH]; intros b; cbn; [split; [lia|intros z []]|]. destruct (IH (Nat.min b c)) as [I1 I2].
    split; [lia|]. intros z [<-|Hz]; [lia|]. apply I2. exact Hz. }
  destruct (G (map (default_level L) r) (default_level L a)) as [G1 G2].
  destruct Hn as [<-|Hn]; [exact G1|]. apply G2. apply in_map. exact Hn.
Qed.

(** * facts about the specified containers *)
Definition spec_ok (nax : list nat) x (t : tensor K) : Prop :=
  wf t /\ rank t = rank x /\ fsz nax (shp t) = fsz nax (shp x) /\ ttag t = ttag x.
Lemma approx_ok lo m nax j x : wf x -> good_axes (rank x) nax -> spec_ok nax x (approx lo m nax j x).
Proof. intros Hw Hg. repeat split; [apply approx_wf; exact Hw|apply approx_rank|apply approx_fsz; exact Hg|apply approx_ttag]. Qed.
Lemma detail_ok lo fs m L nax j x : wf x -> good_axes (rank x) nax -> List.length lo = L -> List.length fs = List.length nax ->
  Forall (fun f => List.length f = L) fs -> spec_ok nax x (detail lo fs m nax j x).
Proof.
  intros Hw Hg H1 H2 H3. destruct (detail_facts lo fs m L nax j x Hw Hg H1 H2 H3) as (A & B & C & _).
  repeat split; auto. unfold detail. cbn [dwt_axes along_axes ttag tmake]. apply approx_ttag.
Qed.

Lemma spec2_tensors lo hi m L nax J x : wf x -> good_axes (rank x) nax -> List.length nax = 2 -> List.length lo = L -> List.length hi = L ->
  forall t, In t (pc_tensors (wavedec2_spec lo hi m nax J x)) -> spec_ok nax x t.
Proof.
  intros Hw Hg Hn H1 H2 t Ht. unfold pc_tensors, wavedec2_spec in Ht. cbn [pc_items flat_map pv_tensors app] in Ht.
  destruct Ht as [<-|Ht]; [apply approx_ok; assumption|].
  apply in_flat_map in Ht as (v & Hv & Ht). apply in_map_iff in Hv as (j & <- & _). cbn in Ht.
  repeat (destruct Ht as [Ht|Ht]; [rewrite <- Ht; apply (detail_ok _ _ m L); auto; cbn; repeat constructor; assumption|]). destruct Ht.
Qed.
Lemma spec3_tensors lo hi m L nax J x : wf x -> good_axes (rank x) nax -> List.length nax = 3 -> List.length lo = L -> List.length hi = L ->
  forall t, In t (pc_tensors (wavedec3_spec lo hi m nax J x)) -> spec_ok nax x t.
Proof.
  intros Hw Hg Hn H1 H2 t Ht. unfold pc_tensors, wavedec3_spec in Ht. cbn [pc_items flat_map pv_tensors app] in Ht.
  destruct Ht as [<-|Ht]; [apply approx_ok; assumption|].
  apply in_flat_map in Ht as (v & Hv & Ht). apply in_map_iff in Hv as (j & <- & _). cbn in Ht.
  repeat (destruct Ht as [Ht|Ht]; [rewrite <- Ht; apply (detail_ok _ _ m L); auto; cbn; repeat constructor; assumption|]). destruct Ht.
Qed.
Lemma spec2_regular lo hi m nax J x : pc_regular (K := K) (wavedec2_spec lo hi m nax J x).
Proof.
  unfold pc_regular, wavedec2_spec. cbn [pc_items pc_is_list]. split.
  - apply Forall_map, Forall_forall. intros j _. reflexivity.
  - destruct (rev (seq 1 J)); cbn; auto.
Qed.
Lemma spec3_regular lo hi m nax J x : pc_regular (K := K) (wavedec3_spec lo hi m nax J x).
Proof.
  unfold pc_regular, wavedec3_spec. cbn [pc_items pc_is_list]. split.
  - apply Forall_map, Forall_forall. intros j _. exact I.
  - destruct (rev (seq 1 J)); cbn; auto.
Qed.

Lemma num_levels_perm2 level L a b : num_levels level L [a; b] = num_levels level L [b; a].
Proof. destruct level; cbn; [reflexivity|]. lia. Qed.
Lemma num_levels_perm3 level L a b c : num_levels level L [a; b; c] = num_levels level L [c; b; a].
Proof. destruct level; cbn; [reflexivity|]. lia. Qed.

(** * wavedec2 *)
Theorem wavedec2_cases x w m L level h axes : wf x -> is_dtype_supported (tdtype x) = true ->
  hint_axes h 2 = Some axes -> List.length axes = 2 -> axes_ok (rank x) axes ->
  List.length (dec_lo w) = L -> List.length (dec_hi w) = L -> 2 <= L -> Nat.even L = true ->
  let nax := map (norm_axis (rank x)) axes in
  let ns := gather nax 0 (shp x) in
  let J := num_levels level L ns in
  match wavedec2 x w (Some (mode_name m)) level h with
  | Ok c => levels_all m L J ns /\ c = wavedec2_spec (dec_lo w) (dec_hi w) m nax J x
  | Raise e => ~ levels_all m L J ns /\ (Forall (fun n => 0 < n) ns -> e = RuntimeError)
  end.
Proof.
  intros Hw Hd Hh Hla Hax H1 H2 HL He nax ns J.
  pose proof (good_axes_ok _ _ Hax) as Hg. fold nax in Hg.
  assert (Hn : List.length nax = 2) by (unfold nax; rewrite map_length; exact Hla).
  destruct (preprocess_deconstruction_ok x w 2 h axes L) as (filt & Hf & Hp); auto; try lia.
  unfold wavedec2. rewrite Hp. cbn [rbind]. fold nax.
  assert (Hl : match level with Some l => Ok l
     | None => let* mm := dwtn_max_level [dim_last (unsqueeze (pre_t nax x) 1) 1; dim_last (unsqueeze (pre_t nax x) 1) 2] (get_len w) in Ok (Z.of_nat mm) end
     = Ok (match level with Some l => l | None => Z.of_nat J end)).
  { destruct level as [z|]; [reflexivity|]. unfold get_len. rewrite H1, dwtn_max_level_val by exact HL. cbn [rbind].
    unfold J, ns. destruct nax as [|a [|b [|]]]; try discriminate. rewrite num_levels_perm2. reflexivity. }
  rewrite Hl. cbn [rbind]. unfold range_level.
  replace (Z.to_nat (match level with Some l => l | None => Z.of_nat J end)) with J
    by (unfold J; destruct level; cbn [num_levels]; [reflexivity|lia]).
  pose proof (wavedec2_loop_cases J w m L nax x filt [] Hw Hn Hg H1 H2 HL He Hf) as Hc.
  destruct (wavedec2_loop J w _ filt _ []) as [r|e]; [|exact Hc]. destruct Hc as [Hlev ->].
  cbn [rbind app]. rewrite squeeze_unsq_pre.
  assert (E : mkPC false (PT (pre_t nax (approx (dec_lo w) m nax J x))
      :: rev (map (fun j => pre_v nax (details2 (dec_lo w) (dec_hi w) m nax j x)) (seq 1 J)))
    = pc_map (pre_t nax) (wavedec2_spec (dec_lo w) (dec_hi w) m nax J x)).
  { unfold pc_map, wavedec2_spec. cbn [pc_is_list pc_items map]. f_equal. apply (f_equal (cons _)). rewrite <- map_rev, map_map. reflexivity. }
  rewrite E. unfold nax.
  rewrite (post_container _ 2 h axes (rank x)); auto using spec2_regular.
  - fold nax. rewrite fsz_length by exact Hg. rewrite Hn. reflexivity.
  - rewrite gather_length. exact Hn.
  - intros t Ht. fold nax. destruct (spec2_tensors _ _ m L nax J x Hw Hg Hn H1 H2 t Ht) as (T1 & T2 & T3 & _). auto.
Qed.

Theorem wavedec2_inv x w mo level h c : wavedec2 x w mo level h = Ok c ->
  is_dtype_supported (tdtype x) = true /\ exists axes, hint_axes h 2 = Some axes /\ List.length axes = 2 /\ axes_ok (rank x) axes.
Proof.
  unfold wavedec2, preprocess_deconstruction. intros H. apply rbind_ok in H as (p & H & _). apply rbind_ok in H as (q & H & _).
  apply preprocess_tensor_inv in H as (A & _ & B). auto.
Qed.

(** * wavedec3 (at least one level) *)
Theorem wavedec3_cases x w m L level h axes : wf x -> is_dtype_supported (tdtype x) = true ->
  hint_axes h 3 = Some axes -> List.length axes = 3 -> axes_ok (rank x) axes ->
  List.length (dec_lo w) = L -> List.length (dec_hi w) = L -> 2 <= L -> Nat.even L = true ->
  let nax := map (norm_axis (rank x)) axes in
  let ns := gather nax 0 (shp x) in
  let J := num_levels level L ns in
  0 < J ->
  match wavedec3 x w (Some (mode_name m)) level h with
  | Ok c => levels_all m L J ns /\ c = wavedec3_spec (dec_lo w) (dec_hi w) m nax J x
  | Raise e => ~ levels_all m L J ns /\ (Forall (fun n => 0 < n) ns -> e = RuntimeError)
  end.
Proof.
  intros Hw Hd Hh Hla Hax H1 H2 HL He nax ns J HJ.
  pose proof (good_axes_ok _ _ Hax) as Hg. fold nax in Hg.
  assert (Hn : List.length nax = 3) by (unfold nax; rewrite map_length; exact Hla).
  destruct (preprocess_deconstruction_ok x w 3 h axes L) as (filt & Hf & Hp); auto; try lia.
  unfold wavedec3. rewrite Hp. cbn [rbind]. fold nax.
  assert (Hl : match level with Some l => Ok l
     | None => let* mm := dwtn_max_level [dim_last (unsqueeze (pre_t nax x) 1) 1; dim_last (unsqueeze (pre_t nax x) 1) 2; dim_last (unsqueeze (pre_t nax x) 1) 3] (get_len w) in Ok (Z.of_nat mm) end
     = Ok (match level with Some l => l | None => Z.of_nat J end)).
  { destruct level as [z|]; [reflexivity|]. unfold get_len. rewrite H1, dwtn_max_level_val by exact HL. cbn [rbind].
    unfold J, ns. destruct nax as [|a [|b [|c [|]]]]; try discriminate. rewrite num_levels_perm3. reflexivity. }
  rewrite Hl. cbn [rbind]. unfold range_level.
  replace (Z.to_nat (match level with Some l => l | None => Z.of_nat J end)) with J
    by (unfold J; destruct level; cbn [num_levels]; [reflexivity|lia]).
  pose proof (wavedec3_loop_cases J w m L nax x _ filt [] Hw Hn Hg H1 H2 HL He Hf (or_introl eq_refl)) as Hc.
  destruct (wavedec3_loop J w _ filt _ []) as [r|e]; [|exact Hc]. destruct Hc as [Hlev ->].
  cbn [rbind app].
  assert (E : mkPC false (PT (match J with O => unsqueeze (pre_t nax x) 1 | _ => pre_t nax (approx (dec_lo w) m nax J x) end)
      :: rev (map (fun j => pre_v nax (details3 (dec_lo w) (dec_hi w) m nax j x)) (seq 1 J)))
    = pc_map (pre_t nax) (wavedec3_spec (dec_lo w) (dec_hi w) m nax J x)).
  { destruct J as [|J']; [lia|]. unfold pc_map, wavedec3_spec. cbn [pc_is_list pc_items map]. f_equal. apply (f_equal (cons _)). rewrite <- map_rev, map_map. reflexivity. }
  rewrite E. unfold nax.
  rewrite (post_container _ 3 h axes (rank x)); auto using spec3_regular.
  - fold nax. rewrite fsz_length by exact Hg. rewrite Hn. reflexivity.
  - rewrite gather_length. exact Hn.
  - intros t Ht. fold nax. destruct (spec3_tensors _ _ m L nax J x Hw Hg Hn H1 H2 t Ht) as (T1 & T2 & T3 & _). auto.
Qed.

Theorem wavedec3_inv x w mo level h c : wavedec3 x w mo level h = Ok c ->
  is_dtype_supported (tdtype x) = true /\ exists axes, hint_axes h 3 = Some axes /\ List.length axes = 3 /\ axes_ok (rank x) axes.
Proof.
  unfold wavedec3, preprocess_deconstruction. intros H. apply rbind_ok in H as (p & H & _). apply rbind_ok in H as (q & H & _).
  apply preprocess_tensor_inv in H as (A & _ & B). auto.
Qed.

End WN.
