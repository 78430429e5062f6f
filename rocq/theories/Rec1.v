(** waverec: computes the inverse transform; exactly which coefficient lists it accepts;
    perfect reconstruction. *)
From Coq Require Import List Arith ZArith Lia Bool String.
From Coq Require Import ZifyNat ZifyBool.
From Verif Require Import Base Sums Tensor TensorFacts Util Perm Plumb Accept Spec Conv1 PadFacts CoreFacts Analysis AnalysisInv PRKernel Synthesis Filters Wave1 Wave1Inv.
Import ListNotations.
Ltac Zify.zify_post_hook ::= Z.div_mod_to_equations.

Section R1.
Context {K : CRing}.
Add Ring Kring : (cr_th K).
Implicit Types t u x y lo hi : tensor K.
Implicit Types rlo rhi : list K.
Implicit Types w : wavelet K.

(** * helpers *)
Lemma shp_eq_fsz nax (s s' : list nat) : good_axes (List.length s) nax -> List.length s' = List.length s ->
  fsz nax s' = fsz nax s -> gather nax 0 s' = gather nax 0 s -> s' = s.
Proof.
  intros Hg Hl Hf Ha. apply (nth_ext_len _ _ 0); [exact Hl|]. intros d Hd.
  destruct (memn d nax) eqn:E.
  - apply memn_spec in E. unfold gather in Ha. rewrite map_ext_in_iff in Ha. apply (Ha d E).
  - unfold fsz in Hf. rewrite Hl in Hf. unfold gather in Hf. rewrite map_ext_in_iff in Hf. apply (Hf d).
    apply in_front. split; [lia|]. intros Hin. apply memn_spec in Hin. congruence.
Qed.

Lemma idwt_axes_ext L C (gs gs' : nat -> list (list K)) nax (ys ys' : nat -> tensor K) outs : 1 <= C ->
  (forall c, c < C -> gs c = gs' c) -> (forall c, c < C -> ys c = ys' c) ->
  idwt_axes L C gs nax ys outs = idwt_axes L C gs' nax ys' outs.
Proof.
  intros HC Hg Hy. unfold idwt_axes. rewrite (Hy 0) by lia. apply make_ext. intros idx _.
  apply sumf_ext. intros c Hc. rewrite (Hg c Hc), (Hy c Hc). reflexivity.
Qed.

Lemma win1 t b n p o : shp t = [b; n] -> narrow t 1 p o = win p [o] t.
Proof.
  intros Hs. unfold narrow, win. rewrite Hs. cbn [updn hd]. apply make_ext. intros idx Hv.
  destruct idx as [|i [|j [|k idx]]]; inversion Hv as [|? ? ? ? _ H]; subst; inversion H as [|? ? ? ? _ H']; subst; inversion H'. reflexivity.
Qed.

(** a level's target length: [next] is the length of the following detail tensor *)
Definition fits (L k : nat) (next : option nat) (n : nat) : Prop :=
  match next with None => n = 2 * k + 2 - L | Some nx => n = nx /\ (nx + L = 2 * k + 2 \/ nx + L = 2 * k + 1) end.

Lemma pad_value L : 2 <= L -> (2 * L - 3) / 2 = L - 2.
Proof. lia. Qed.

Lemma adjust_fits L k nx : 2 <= L -> 1 <= k -> nx + L = 2 * k + 2 \/ nx + L = 2 * k + 1 ->
  exists padr, adjust_padding ((k - 1) * 2 + L) nx (L - 2) (L - 2) = Ok (padr, L - 2) /\
    (k - 1) * 2 + L - (L - 2) - padr = nx.
Proof.
  intros HL Hk Hf. unfold adjust_padding.
  destruct (Z.eqb_spec (Z.of_nat nx) (Z.of_nat ((k - 1) * 2 + L) - (Z.of_nat (L - 2) + Z.of_nat (L - 2)))) as [E|E].
  - exists (L - 2). split; [reflexivity|lia].
  - destruct (Z.eqb_spec (Z.of_nat nx) (Z.of_nat ((k - 1) * 2 + L) - (Z.of_nat (L - 2) + Z.of_nat (L - 2)) - 1)) as [E'|E'].
    + exists (L - 2 + 1). split; [reflexivity|lia].
    + lia.
Qed.

Lemma adjust_inv L k nx r : 2 <= L -> 1 <= k -> adjust_padding ((k - 1) * 2 + L) nx (L - 2) (L - 2) = Ok r ->
  nx + L = 2 * k + 2 \/ nx + L = 2 * k + 1.
Proof.
  intros HL Hk. unfold adjust_padding.
  destruct (Z.eqb_spec (Z.of_nat nx) (Z.of_nat ((k - 1) * 2 + L) - (Z.of_nat (L - 2) + Z.of_nat (L - 2)))) as [E|E]; [intros _; lia|].
  destruct (Z.eqb_spec (Z.of_nat nx) (Z.of_nat ((k - 1) * 2 + L) - (Z.of_nat (L - 2) + Z.of_nat (L - 2)) - 1)) as [E'|E']; [intros _; lia|discriminate].
Qed.

Lemma waverec_step_ok rlo rhi L a lo hi filt g next n : wf lo -> wf hi -> shp hi = shp lo -> a < rank lo ->
  List.length rlo = L -> List.length rhi = L -> 2 <= L -> 1 <= nth a (shp lo) 0 ->
  construct_nd_filt (create_tensor rlo false g) (create_tensor rhi false g) 1 = Ok filt ->
  fits L (nth a (shp lo) 0) next n ->
  waverec_step filt L (pre_t [a] lo) (pre_t [a] hi) next = Ok (pre_t [a] (idwt1 L rlo rhi a lo hi n)).
Proof.
  intros Hwl Hwh Hs Ha H1 H2 HL Hk Hf Hfit. pose proof (good_axes1 _ _ Ha) as Hg.
  set (k := nth a (shp lo) 0) in *.
  set (ys := fun c : nat => match c with O => lo | _ => hi end).
  destruct (rec_step 1 rlo rhi L [a] ys filt g) as (st & ct & E1 & E2 & E3 & E4 & E5); auto; try lia.
  { intros c Hc. destruct c; cbn; auto. }
  { unfold ys. cbn. constructor; [exact Hk|constructor]. }
  unfold waverec_step. cbn [Nat.pow Nat.mul Nat.add seq map ys] in E1. rewrite E1. cbn [rbind]. rewrite E2. cbn [rbind].
  rewrite pad_value by exact HL.
  set (r := squeeze ct 1) in *. cbn [ys gather map] in E3. fold k in E3.
  assert (Hdl : dim_last r 1 = (k - 1) * 2 + L) by (unfold dim_last, rank; rewrite E3; reflexivity).
  assert (Hrr : rank r = 2) by (unfold rank; rewrite E3; reflexivity).
  assert (Hps : exists padr, match next with None => Ok (L - 2, L - 2) | Some nx => adjust_padding (dim_last r 1) nx (L - 2) (L - 2) end = Ok (padr, L - 2)
      /\ (k - 1) * 2 + L - (L - 2) - padr = n).
  { destruct next as [nx|]; cbn [fits] in Hfit.
    - destruct Hfit as [-> Hfit]. rewrite Hdl. apply adjust_fits; assumption.
    - exists (L - 2). split; [reflexivity|lia]. }
  destruct Hps as (padr & Hps & Hn). rewrite Hps. cbn [rbind].
  f_equal. rewrite Hrr. change (2 - 1) with 1.
  set (r1 := if Nat.ltb 0 (L - 2) then slice_from r 1 (L - 2) else r).
  assert (Hr1 : rank r1 = 2).
  { unfold r1. destruct (Nat.ltb 0 (L - 2)); [|exact Hrr]. unfold slice_from, narrow, rank. rewrite shp_make, updn_length. exact Hrr. }
  rewrite Hr1. change (2 - 1) with 1. change ((if Nat.ltb 0 padr then slice_dropend r1 1 padr else r1)) with (crop r 1 (L - 2) padr).
  rewrite crop_narrow; [|exact E4|rewrite Hrr; lia|rewrite E3; cbn [nth]; lia].
  rewrite E3. cbn [nth]. rewrite Hn. rewrite (win1 r _ _ _ _ E3).
  rewrite (E5 [n]).
  - apply (f_equal (pre_t [a])). unfold idwt1. apply idwt_axes_ext; [cbn; lia| |reflexivity].
    intros c Hc. do 2 (destruct c as [|c]; [reflexivity|]). cbn in Hc. lia.
  - cbn [ys gather map]. fold k. constructor; [|constructor]. destruct next as [nx|]; cbn [fits] in Hfit; lia.
Qed.

(** sizes of the reconstruction *)
Lemma idwt1_facts L rlo rhi a lo hi n : a < rank lo ->
  wf (idwt1 L rlo rhi a lo hi n) /\ rank (idwt1 L rlo rhi a lo hi n) = rank lo /\
  ttag (idwt1 L rlo rhi a lo hi n) = ttag lo /\ fsz [a] (shp (idwt1 L rlo rhi a lo hi n)) = fsz [a] (shp lo) /\
  nth a (shp (idwt1 L rlo rhi a lo hi n)) 0 = n /\ shp (idwt1 L rlo rhi a lo hi n) = updn a n (shp lo).
Proof.
  intros Ha. unfold idwt1, idwt_axes. repeat split.
  - apply wf_make.
  - unfold rank. rewrite shp_make, upds_length. reflexivity.
  - rewrite shp_make. unfold fsz. rewrite upds_length. apply gather_upds_notin. intros d Hd. apply in_front in Hd. tauto.
  - rewrite shp_make. cbn [upds]. apply nth_updn_eq. exact Ha.
Qed.

Definition alen (a : nat) (t : tensor K) : nat := nth a (shp t) 0.

Lemma waverec_loop_ok his : forall rlo rhi L a lo filt g, wf lo -> a < rank lo ->
  Forall (fun h => wf h /\ rank h = rank lo /\ fsz [a] (shp h) = fsz [a] (shp lo)) his ->
  List.length rlo = L -> List.length rhi = L -> 2 <= L ->
  lens_fit L (alen a lo) (map (alen a) his) ->
  construct_nd_filt (create_tensor rlo false g) (create_tensor rhi false g) 1 = Ok filt ->
  waverec_loop filt L (pre_t [a] lo) (map (pre_t [a]) his) = Ok (pre_t [a] (waverec_spec L rlo rhi a lo his)) /\
  wf (waverec_spec L rlo rhi a lo his) /\ rank (waverec_spec L rlo rhi a lo his) = rank lo /\
  fsz [a] (shp (waverec_spec L rlo rhi a lo his)) = fsz [a] (shp lo).
Proof.
  induction his as [|hi his IH]; intros rlo rhi L a lo filt g Hw Ha Hall H1 H2 HL Hfit Hf.
  - cbn. auto.
  - cbn [map waverec_loop waverec_spec]. inversion Hall as [|? ? (Hwh & Hrh & Hfh) Hall']; subst.
    cbn [map lens_fit] in Hfit. destruct Hfit as (Hk & Hk1 & Hrest).
    pose proof (good_axes1 _ _ Ha) as Hg.
    assert (Hs : shp hi = shp lo).
    { apply (shp_eq_fsz [a]); auto. cbn. unfold alen in Hk. rewrite Hk. reflexivity. }
    set (n := rec_len (List.length rlo) a lo his).
    rewrite (waverec_step_ok rlo rhi (List.length rlo) a lo hi filt g _ n); auto.
    2:{ unfold fits, n, rec_len. destruct his as [|h rest]; cbn [map] in *.
        - reflexivity.
        - split; [reflexivity|]. apply Hrest. }
    cbn [rbind].
    destruct (idwt1_facts (List.length rlo) rlo rhi a lo hi n Ha) as (F1 & F2 & F3 & F4 & F5 & F6).
    set (lo' := idwt1 (List.length rlo) rlo rhi a lo hi n) in *.
    destruct (IH rlo rhi (List.length rlo) a lo' filt g) as (I1 & I2 & I3 & I4); auto.
    + rewrite F2. exact Ha.
    + eapply Forall_impl; [|exact Hall']. cbv beta. intros h (A1 & A2 & A3). rewrite F4, A2, F2. auto.
    + unfold alen at 1. rewrite F5. unfold n, rec_len. destruct his as [|h rest]; cbn [map] in *; [exact I|]. apply Hrest.
    + rewrite <- F2, <- F4. auto.
Qed.

(** * containers of plain tensors *)
Lemma check_same_ok ts g : ts <> [] -> Forall (fun t => ttag t = g) ts ->
  check_same_device_dtype (mkPC true (map PT ts)) = Ok g.
Proof.
  intros Hne Hall. destruct ts as [|t ts]; [congruence|]. unfold check_same_device_dtype. cbn [pc_items map].
  cbn [check_if_tensor rbind]. inversion Hall as [|? ? Ht Hts]; subst.
  change (PT t :: map PT ts) with (map PT (t :: ts)).
  assert (Hin : forall u, In u (pc_tensors (mkPC true (map PT (t :: ts)))) -> ttag u = ttag t).
  { intros u Hu. rewrite pc_tensors_list in Hu. rewrite Forall_forall in Hall. apply Hall. exact Hu. }
  rewrite (tree_map_ok _ _ (fun u => u)).
  - cbn [rbind]. rewrite (tree_map_ok _ _ (fun u => u)); [reflexivity|apply pc_regular_list; discriminate|].
    intros u Hu. unfold check_same_dtype. unfold tdtype. rewrite (Hin u Hu).
    destruct (fst (ttag t)); cbn; reflexivity.
  - apply pc_regular_list. discriminate.
  - intros u Hu. unfold check_same_device, tdevice. rewrite (Hin u Hu).
    replace (device_eqb (snd (ttag t)) (snd (ttag t))) with true; [reflexivity|].
    symmetry. destruct (snd (ttag t)); cbn; auto. apply Nat.eqb_refl.
Qed.

Lemma rmap_as_tensor ts : rmap as_tensor (map PT ts) = Ok ts :> result (list (tensor K)).
Proof. rewrite (rmap_ok _ (fun v => match v with PT t => t | _ => mkT (float16, cpu) [] [] end)).
  - rewrite map_map, map_id. reflexivity.
  - intros v Hv. apply in_map_iff in Hv as (t & <- & _). reflexivity. Qed.

Theorem waverec_ok lo his w L axis h : wf lo -> is_dtype_supported (tdtype lo) = true ->
  hint_axes h 1 = Some [axis] -> axis_ok (rank lo) axis ->
  let a := norm_axis (rank lo) axis in
  Forall (fun t => wf t /\ rank t = rank lo /\ fsz [a] (shp t) = fsz [a] (shp lo) /\ ttag t = ttag lo) his ->
  List.length (rec_lo w) = L -> List.length (rec_hi w) = L -> 2 <= L ->
  lens_fit L (alen a lo) (map (alen a) his) ->
  waverec (map PT (lo :: his)) w h = Ok (waverec_spec L (rec_lo w) (rec_hi w) a lo his).
Proof.
  intros Hw Hd Hh Hax a Hall H1 H2 HL Hfit.
  assert (Ha : a < rank lo) by (apply norm_axis_lt; exact Hax).
  pose proof (good_axes1 _ _ Ha) as Hg.
  unfold waverec. rewrite (preprocess_coeffs_ok (mkPC true (map PT (lo :: his))) 1 h [axis] (rank lo) false);
    auto using axis_axes_ok.
  - rewrite pc_map_list. change (first_shape (mkPC true (map PT (lo :: his)))) with (shp lo).
    change (map (norm_axis (rank lo)) [axis]) with [a]. cbn [rbind].
    rewrite (check_same_ok _ (ttag lo)); [|discriminate|].
    2:{ cbn [map]. constructor; [reflexivity|]. apply Forall_map. eapply Forall_impl; [|exact Hall]. cbn. intros t Ht. apply Ht. }
    cbn [rbind get_filter_tensors].
    destruct (filt_nd 1 (rec_lo w) (rec_hi w) false (ttag lo) L ltac:(lia) H1 H2) as (filt & Hf & _).
    assert (Hf' := Hf). cbn [construct_nd_filt construct_1d_filt] in Hf'. unfold construct_1d_filt in Hf'. rewrite Hf'. cbn [rbind pc_items].
    rewrite rmap_as_tensor. cbn [rbind map].
    replace (dim_last (create_tensor (rec_lo w) false (ttag lo)) 1) with L by (symmetry; exact H1).
    destruct (waverec_loop_ok his (rec_lo w) (rec_hi w) L a lo filt (ttag lo)) as (I1 & I2 & I3 & I4); auto.
    { eapply Forall_impl; [|exact Hall]. cbn. intros t Ht. repeat split; apply Ht. }
    change (map (fun t => pre_t [a] t) his) with (map (pre_t [a]) his). rewrite I1. cbn [rbind].
    rewrite (postprocess_tensor_ok _ 1 h [axis] (rank lo)); auto using axis_axes_ok.
    + cbn [map]. fold a. rewrite <- I4. rewrite post_pre; auto. rewrite I3. exact Hg.
    + rewrite fsz_length by exact Hg. reflexivity.
    + apply pre_t_wf. rewrite I3. exact Hg.
    + exists [nth a (shp (waverec_spec L (rec_lo w) (rec_hi w) a lo his)) 0]. cbn. rewrite I4. auto.
  - apply pc_regular_list. discriminate.
  - intros t Ht. rewrite pc_tensors_list in Ht. destruct Ht as [<-|Ht]; [auto|].
    rewrite Forall_forall in Hall. destruct (Hall t Ht) as (A & B & _). auto.
Qed.

(** * perfect reconstruction *)
Lemma details_rev (dlo dhi : list K) m a J x :
  map (fun j => detail (K := K) dlo [dhi] m [a] j x) (rev (seq 1 (S J)))
  = detail dlo [dhi] m [a] (S J) x :: map (fun j => detail dlo [dhi] m [a] j x) (rev (seq 1 J)).
Proof. rewrite seq_S, rev_app_distr. reflexivity. Qed.

Lemma rec_spec_pr J : forall dlo dhi rlo rhi L m a x, cancel2 K -> pr_bank dlo dhi rlo rhi L -> wf x -> a < rank x ->
  levels_ok m L J (alen a x) ->
  waverec_spec L rlo rhi a (approx dlo m [a] J x) (map (fun j => detail dlo [dhi] m [a] j x) (rev (seq 1 J)))
  = match J with O => x | _ => ext_even m [a] x end.
Proof.
  induction J as [|J IH]; intros dlo dhi rlo rhi L m a x Hc Hpr Hw Ha Hlev; [reflexivity|].
  rewrite details_rev. cbn [waverec_spec].
  pose proof (pr_len _ _ _ _ _ Hpr) as (H1 & H2 & H3 & H4). pose proof (pr_two _ _ _ _ _ Hpr) as HL.
  pose proof (good_axes1 _ _ Ha) as Hg.
  set (xj := approx dlo m [a] J x).
  assert (Hxr : rank xj = rank x) by apply approx_rank.
  assert (Hxw : wf xj) by (apply approx_wf; exact Hw).
  assert (Hgj : good_axes (rank xj) [a]) by (rewrite Hxr; exact Hg).
  assert (Hadm : adm_axes m L [a] (shp xj)).
  { apply (levels_axes_adm dlo m L (S J) [a] x J); auto. unfold levels_axes. cbn. constructor; [exact Hlev|constructor]. }
  set (n := rec_len L a (approx dlo m [a] (S J) x) (map (fun j => detail dlo [dhi] m [a] j x) (rev (seq 1 J)))).
  assert (Hka : forall j, alen a (approx dlo m [a] j x) = len_after L j (alen a x)).
  { intros j. pose proof (approx_sizes dlo m L [a] j x Hg H1) as E. exact (f_equal (hd 0) E). }
  assert (Hn : n = match J with O => even_up (alen a x) | _ => alen a xj end).
  { unfold n, rec_len. destruct J as [|J].
    - cbn [seq rev map]. fold (alen a (approx dlo m [a] 1 x)). rewrite Hka. cbn [len_after]. unfold dwt_len, even_up.
      pose proof (pr_even _ _ _ _ _ Hpr) as He. apply Nat.even_spec in He as [q He].
      specialize (Hlev 0 ltac:(lia)). cbn [len_after] in Hlev. apply adm_size in Hlev; [|exact HL]. lia.
    - rewrite details_rev. unfold detail. replace (S J - 1) with J by lia. fold (alen a (dwt_axes [dhi] m [a] (approx dlo m [a] J x))).
      unfold xj. rewrite Hka. rewrite len_after_S. rewrite <- Hka.
      assert (E : gather [a] 0 (shp (dwt_axes [dhi] m [a] (approx dlo m [a] J x))) = map (dwt_len L) (gather [a] 0 (shp (approx dlo m [a] J x)))).
      { apply dwt_axes_sizes; auto. rewrite approx_rank. exact Hg. }
      exact (f_equal (hd 0) E). }
  assert (Hstep : idwt1 L rlo rhi a (approx dlo m [a] (S J) x) (detail dlo [dhi] m [a] (S J) x) n = ext_to m [a] [n] xj).
  { rewrite <- (idwt_dwt 1 dlo dhi rlo rhi L m [a] xj [n]); auto.
    - unfold idwt1. apply idwt_axes_ext; [cbn; lia| |].
      + intros c Hcc. do 2 (destruct c as [|c]; [reflexivity|]). cbn in Hcc. lia.
      + intros c Hcc. unfold detail. replace (S J - 1) with J by lia. fold xj. do 2 (destruct c as [|c]; [reflexivity|]). cbn in Hcc. lia.
    - cbn [gather map]. constructor; [|constructor]. rewrite Hn. destruct J; [reflexivity|]. unfold alen, even_up. lia. }
  rewrite Hstep. destruct J as [|J].
  - cbn [seq rev map waverec_spec]. rewrite Hn. reflexivity.
  - rewrite Hn. change [alen a xj] with (gather [a] 0 (shp xj)). rewrite ext_to_id by assumption.
    unfold xj. rewrite (IH dlo dhi rlo rhi L m a x); auto. intros j Hj. apply Hlev. lia.
Qed.

Lemma spec_fit m L J a x dlo dhi : wf x -> a < rank x -> List.length dlo = L -> List.length dhi = L -> 2 <= L -> Nat.even L = true ->
  levels_ok m L J (alen a x) ->
  lens_fit L (alen a (approx dlo m [a] J x)) (map (alen a) (map (fun j => detail dlo [dhi] m [a] j x) (rev (seq 1 J)))).
Proof.
  intros Hw Ha H1 H2 HL He. pose proof (good_axes1 _ _ Ha) as Hg.
  assert (Hka : forall j, alen a (approx dlo m [a] j x) = len_after L j (alen a x)).
  { intros j. pose proof (approx_sizes dlo m L [a] j x Hg H1) as E. exact (f_equal (hd 0) E). }
  assert (Hkd : forall j, 1 <= j -> alen a (detail dlo [dhi] m [a] j x) = len_after L j (alen a x)).
  { intros j Hj. destruct j as [|j]; [lia|]. unfold detail. replace (S j - 1) with j by lia. rewrite len_after_S, <- Hka.
    assert (E : gather [a] 0 (shp (dwt_axes [dhi] m [a] (approx dlo m [a] j x))) = map (dwt_len L) (gather [a] 0 (shp (approx dlo m [a] j x)))).
    { apply dwt_axes_sizes; auto. rewrite approx_rank. exact Hg. }
    exact (f_equal (hd 0) E). }
  rewrite Hka, map_map. rewrite (map_ext_in _ (fun j => len_after L j (alen a x))).
  2:{ intros j Hj. apply in_rev in Hj. apply in_seq in Hj. apply Hkd. lia. }
  set (n0 := alen a x). induction J as [|J IH]; intros Hlev; [exact I|].
  rewrite seq_S, rev_app_distr. cbn [rev app map lens_fit]. change (1 + J) with (S J).
  assert (Hpos : forall j, j < S J -> 1 <= len_after L (S j) n0).
  { intros j Hj. rewrite len_after_S. specialize (Hlev j Hj). apply adm_size in Hlev; [|exact HL]. unfold dwt_len. lia. }
  split; [reflexivity|]. split; [apply Hpos; lia|].
  destruct J as [|J]; [exact I|].
  assert (Hlev' : levels_ok m L (S J) n0) by (intros j Hj; apply Hlev; lia).
  specialize (IH Hlev').
  destruct (map (fun j => len_after L j n0) (rev (seq 1 (S J)))) as [|d rest] eqn:E; [exact I|].
  assert (Hd : d = len_after L (S J) n0).
  { rewrite seq_S, rev_app_distr in E. cbn [rev app map] in E. injection E as <- _. reflexivity. }
  subst d. split; [|exact IH]. rewrite (len_after_S L (S J)). unfold dwt_len.
  apply Nat.even_spec in He as [q He]. specialize (Hlev (S J) ltac:(lia)). apply adm_size in Hlev; [|exact HL]. lia.
Qed.

Theorem waverec_wavedec_spec w m L J axis x h : cancel2 K -> pr_bank (dec_lo w) (dec_hi w) (rec_lo w) (rec_hi w) L ->
  wf x -> is_dtype_supported (tdtype x) = true -> axis_ok (rank x) axis -> hint_axes h 1 = Some [axis] ->
  let a := norm_axis (rank x) axis in
  levels_ok m L J (alen a x) ->
  waverec (map PT (wavedec_spec (dec_lo w) (dec_hi w) m a J x)) w h = Ok (match J with O => x | _ => ext_even m [a] x end).
Proof.
  intros Hc Hpr Hw Hd Hax Hh a Hlev.
  pose proof (pr_len _ _ _ _ _ Hpr) as (H1 & H2 & H3 & H4). pose proof (pr_two _ _ _ _ _ Hpr) as HL.
  assert (Ha : a < rank x) by (apply norm_axis_lt; exact Hax). pose proof (good_axes1 _ _ Ha) as Hg.
  unfold wavedec_spec. rewrite (waverec_ok _ _ w L axis h); auto.
  - rewrite approx_rank. fold a. f_equal. apply rec_spec_pr; assumption.
  - apply approx_wf. exact Hw.
  - unfold tdtype. rewrite approx_ttag. exact Hd.
  - rewrite approx_rank. exact Hax.
  - rewrite approx_rank. fold a. apply Forall_map. apply Forall_forall. intros j Hj. apply in_rev in Hj. apply in_seq in Hj.
    destruct (detail_facts (dec_lo w) [dec_hi w] m L [a] j x) as (F1 & F2 & F3 & F4); auto.
    rewrite approx_fsz by exact Hg. repeat split; auto.
    rewrite approx_ttag. unfold detail. cbn [dwt_axes along_axes ttag tmake]. apply approx_ttag.
  - rewrite approx_rank. fold a. apply spec_fit; auto. apply (pr_even _ _ _ _ _ Hpr).
Qed.

End R1.
