(** The four N-d padded synthesis functions under one name; linearity and batch independence of the result. *)
From Coq Require Import List Arith ZArith Lia Bool String.
From Verif Require Import Base Sums Tensor TensorFacts Util Perm Plumb Accept Spec Conv1 PadFacts CoreFacts Analysis AnalysisInv PRKernel Synthesis Filters Wave1 Wave1Inv Rec1 Rec1Inv Lin Props1 Conv2 Conv3 Spec2 WaveN RecN Props2 Sep SpecSep SepFacts SepRec SepRec2 SepRec3 PropsSep RecNInv.
Import ListNotations.

Inductive synth := Swaverec2 (h : axishint) | Swaverec3 (h : axishint) | Sfswaverec2 (h : axishint) | Sfswaverec3 (h : axishint).

Section UR.
Context {K : CRing}.
Add Ring Kring : (cr_th K).
Implicit Types x y t lo : tensor K.
Implicit Types w : wavelet K.
Implicit Types levels : list (list (tensor K)).

(** waverec2, waverec3, fswaverec2 or fswaverec3 (conv_transform_2.py:160-253, conv_transform_3.py:148-250,
    separable_conv_transform.py:281-345) *)
Definition synthesise (S : synth) (c : pycoeffs K) w : result (tensor K) :=
  match S with
  | Swaverec2 h => waverec2 c w h | Swaverec3 h => waverec3 c w h
  | Sfswaverec2 h => fswaverec2 c w h | Sfswaverec3 h => fswaverec3 c w h
  end.
Definition sdim (S : synth) : nat := match S with Swaverec2 _ | Sfswaverec2 _ => 2 | _ => 3 end.
Definition shint (S : synth) : axishint := match S with Swaverec2 h | Swaverec3 h | Sfswaverec2 h | Sfswaverec3 h => h end.
(** number of detail tensors per level *)
Definition sdets (S : synth) : nat := match S with Swaverec2 _ | Sfswaverec2 _ => 3 | _ => 7 end.
(** the container of one level: a tuple for waverec2, a dictionary for the others *)
Definition skeys (S : synth) : list string := match S with Swaverec2 _ => [] | Swaverec3 _ => keys3 | Sfswaverec2 _ => detail_keys 2 | Sfswaverec3 _ => detail_keys 3 end.
Definition slevel (S : synth) (ds : list (tensor K)) : pyval K := match S with Swaverec2 _ => PTup ds | _ => PDict (combine (skeys S) ds) end.
Definition container (S : synth) lo levels : pycoeffs K := mkPC false (PT lo :: map (slevel S) levels).
Definition schans (S : synth) (rlo rhi : list K) : list (list (list K)) :=
  match S with Swaverec2 _ => chans2 rlo rhi | Swaverec3 _ => chans3 rlo rhi | Sfswaverec2 _ => chansW 2 rlo rhi | Sfswaverec3 _ => chansW 3 rlo rhi end.
Lemma schans_len S rlo rhi : List.length (schans S rlo rhi) = Datatypes.S (sdets S).
Proof. destruct S; reflexivity. Qed.

Lemma combine_lvl N ds : (N = 2%nat \/ N = 3%nat) -> List.length ds = List.length (detail_keys N) -> dict_lvl (K := K) N (combine (detail_keys N) ds) ds.
Proof.
  intros HN Hl. split.
  - destruct HN as [-> | ->]; cbn in Hl.
    + destruct ds as [|a [|b [|c [|]]]]; try discriminate. reflexivity.
    + destruct ds as [|a [|b [|c [|e [|f [|g [|h [|]]]]]]]]; try discriminate. reflexivity.
  - intros s Hs. assert (Hd : In s (detail_keys N)).
    { apply in_map_iff in Hs as ([k t] & <- & Hin). apply in_combine_l in Hin. exact Hin. }
    apply detail_keys_spec in Hd. tauto.
Qed.

Theorem synth_ok S lo levels w L axes : wf lo -> is_dtype_supported (tdtype lo) = true ->
  hint_axes (shint S) (sdim S) = Some axes -> List.length axes = sdim S -> axes_ok (rank lo) axes ->
  List.length (rec_lo w) = L -> List.length (rec_hi w) = L -> (2 <= L)%nat ->
  let nax := map (norm_axis (rank lo)) axes in
  coeffs_fit (sdets S) nax L lo levels ->
  synthesise S (container S lo levels) w = Ok (recN_spec L (schans S (rec_lo w) (rec_hi w)) nax lo levels).
Proof.
  intros Hw Hd Hh Hl Hax H1 H2 HL nax Hfit. destruct S as [h|h|h|h]; cbn [synthesise shint sdim sdets schans] in *.
  - apply (waverec2_ok lo levels w L h axes); auto.
  - apply (waverec3_ok lo levels w L h axes); auto.
  - unfold container, fswaverec2. replace (map (slevel (Sfswaverec2 h)) levels) with (map PDict (map (combine (detail_keys 2)) levels)) by (rewrite map_map; reflexivity).
    apply (fswaverecn_ok lo _ levels w L 2 h axes); auto. split; [|split; [|exact Hfit]].
    + destruct Hfit as [Hf _]. clear - Hf. induction Hf as [|ds levels [[A _] _] _ IH]; cbn [map]; constructor; auto. apply combine_lvl; auto.
    + intros d t Hdi Ht. apply in_map_iff in Hdi as (ds & <- & Hds). apply (fit_entries _ _ _ _ _ ds t Hfit Hds).
      apply in_map_iff in Ht as ([k u] & <- & Hin). apply in_combine_r in Hin. exact Hin.
  - unfold container, fswaverec3. replace (map (slevel (Sfswaverec3 h)) levels) with (map PDict (map (combine (detail_keys 3)) levels)) by (rewrite map_map; reflexivity).
    apply (fswaverecn_ok lo _ levels w L 3 h axes); auto. split; [|split; [|exact Hfit]].
    + destruct Hfit as [Hf _]. clear - Hf. induction Hf as [|ds levels [[A _] _] _ IH]; cbn [map]; constructor; auto. apply combine_lvl; auto.
    + intros d t Hdi Ht. apply in_map_iff in Hdi as (ds & <- & Hds). apply (fit_entries _ _ _ _ _ ds t Hfit Hds).
      apply in_map_iff in Ht as ([k u] & <- & Hin). apply in_combine_r in Hin. exact Hin.
Qed.

(** * one step of recN_spec keeps the coefficients fitting *)
Lemma fit_step C nax L (fs : list (list (list K))) lo ds levels : (1 <= C)%nat -> good_axes (rank lo) nax -> coeffs_fit C nax L lo (ds :: levels) ->
  let lo' := idwtN L fs nax lo ds (recN_outs L nax lo levels) in
  Forall (fun d => wf d /\ shp d = shp lo) ds /\ List.length (recN_outs L nax lo levels) = List.length nax /\
  wf lo' /\ rank lo' = rank lo /\ ttag lo' = ttag lo /\ coeffs_fit C nax L lo' levels.
Proof.
  intros HC Hg [Hall Hfit]. cbv zeta. inversion Hall as [|? ? [(Hl & Hds & Heq) Htag] Hall']; subst. cbn [map sizes_fit] in Hfit. destruct Hfit as (Hk & Hk1 & Hrest).
  split.
  { rewrite Forall_forall in Hds |- *. intros d Hd. destruct (Hds d Hd) as (D1 & D2 & D3). split; [exact D1|].
    apply (shp_eq_fsz nax); auto. destruct ds as [|h ds]; [destruct Hd|]. cbn [lsizes] in Hk.
    rewrite (Heq d h); [exact Hk|exact Hd|left; reflexivity]. }
  assert (Hlo : List.length (recN_outs L nax lo levels) = List.length nax).
  { unfold recN_outs. destruct levels as [|[|h hs] rest]; rewrite ?map_length, ?gather_length; reflexivity. }
  split; [exact Hlo|]. destruct (idwtN_facts L fs nax lo ds (recN_outs L nax lo levels) Hg Hlo) as (Z1 & Z2 & Z3 & Z4 & Z5).
  split; [exact Z1|]. split; [exact Z2|]. split; [exact Z3|]. split.
  - rewrite Z2, Z3, Z4. exact Hall'.
  - rewrite Z5. destruct levels as [|e rest]; [exact I|]. cbn [map] in Hrest |- *.
    inversion Hall' as [|? ? [(Hz & _) _] _]; subst. unfold recN_outs. destruct e as [|h e]; [cbn in Hz; lia|]. apply Hrest.
Qed.

(** * linearity *)
Definition same_shapes levels levels' : Prop := Forall2 (Forall2 (fun t t' => shp t' = shp t)) levels levels'.
Lemma map2_nth {A} (f : A -> A -> A) l l' c d d' : List.length l = List.length l' -> (c < List.length l)%nat -> nth c (map2 f l l') (f d d') = f (nth c l d) (nth c l' d').
Proof.
  revert l' c. induction l as [|p l IH]; intros [|q l'] c Hl Hc; cbn in *; try lia. destruct c; [reflexivity|]. apply IH; lia.
Qed.
Lemma recN_lin C nax L (fs : list (list (list K))) a b : (1 <= C)%nat -> List.length fs = S C -> forall levels levels' lo lo', wf lo -> wf lo' -> shp lo' = shp lo -> good_axes (rank lo) nax ->
  coeffs_fit C nax L lo levels -> coeffs_fit C nax L lo' levels' -> same_shapes levels levels' ->
  recN_spec L fs nax (tlin a b lo lo') (map2 (map2 (tlin a b)) levels levels') = tlin a b (recN_spec L fs nax lo levels) (recN_spec L fs nax lo' levels').
Proof.
  intros HC Hfs. induction levels as [|ds levels IH]; intros levels' lo lo' Hw Hw' Hs Hg Hf Hf' Hss; inversion Hss as [|? ds' ? rest' Hds Hss']; subst; [reflexivity|].
  cbn [map2 recN_spec]. assert (Hr : rank lo' = rank lo) by (unfold rank; rewrite Hs; reflexivity). assert (Hg' : good_axes (rank lo') nax) by (rewrite Hr; exact Hg).
  assert (Eo : recN_outs L nax lo' rest' = recN_outs L nax lo levels).
  { unfold recN_outs. destruct Hss' as [|e e' ? ? He _]; [rewrite Hs; reflexivity|]. destruct He as [|t t' ? ? Ht _]; [rewrite Hs; reflexivity|]. rewrite Ht. reflexivity. }
  assert (Eo2 : recN_outs L nax (tlin a b lo lo') (map2 (map2 (tlin a b)) levels rest') = recN_outs L nax lo levels).
  { unfold recN_outs. destruct Hss' as [|e e' ? ? He _]; [reflexivity|]. cbn [map2]. destruct He as [|t t' ? ? Ht _]; reflexivity. }
  rewrite Eo, Eo2. pose proof (fit_step C nax L fs lo ds levels HC Hg Hf) as St. pose proof (fit_step C nax L fs lo' ds' rest' HC Hg' Hf') as St'. cbv zeta in St, St'. rewrite Eo in St'.
  set (outs := recN_outs L nax lo levels) in *. destruct St as (A1 & A2 & A3 & A4 & A5 & A6). destruct St' as (B1 & B2 & B3 & B4 & B5 & B6).
  assert (Hl : List.length ds = C) by (destruct Hf as [Hf _]; apply Forall_inv in Hf as [[Hf _] _]; exact Hf).
  assert (Hl' : List.length ds' = C) by (destruct Hf' as [Hf'' _]; apply Forall_inv in Hf'' as [[Hf'' _] _]; exact Hf'').
  assert (E : idwtN L fs nax (tlin a b lo lo') (map2 (tlin a b) ds ds') outs = tlin a b (idwtN L fs nax lo ds outs) (idwtN L fs nax lo' ds' outs)
     /\ shp (idwtN L fs nax lo' ds' outs) = shp (idwtN L fs nax lo ds outs)).
  { unfold idwtN. rewrite Hfs.
    rewrite (idwt_axes_ext L (S C) (fun c => nth c fs []) (fun c => nth c fs []) nax (fun c => nth c (tlin a b lo lo' :: map2 (tlin a b) ds ds') (tlin a b lo lo'))
       (fun c => tlin a b (nth c (lo :: ds) lo) (nth c (lo' :: ds') lo'))); [|lia|auto|].
    - apply (idwt_axes_lin L (S C) (fun c => nth c fs []) nax (fun c => nth c (lo :: ds) lo) (fun c => nth c (lo' :: ds') lo')); [lia|].
      intros c Hc. cbn [nth]. rewrite Forall_forall in A1, B1. destruct c as [|c]; cbn [nth]; [auto|].
      destruct (A1 (nth c ds lo)) as [P1 P2]; [apply nth_In; lia|]. destruct (B1 (nth c ds' lo')) as [Q1 Q2]; [apply nth_In; lia|]. repeat split; auto; congruence.
    - intros c Hc. destruct c as [|c]; [reflexivity|]. cbn [nth]. apply map2_nth; lia. }
  destruct E as [-> Es]. apply IH; auto. rewrite A4. exact Hg.
Qed.

(** * one signal of a batch *)
Lemma fibre_recN C nax L (fs : list (list (list K))) idx : (1 <= C)%nat -> List.length fs = S C -> forall levels lo, wf lo -> good_axes (rank lo) nax -> fib_ok nax idx (shp lo) ->
  coeffs_fit C nax L lo levels ->
  fibre nax idx (recN_spec L fs nax lo levels) = recN_spec L fs (seq 0 (List.length nax)) (fibre nax idx lo) (map (map (fibre nax idx)) levels).
Proof.
  intros HC Hfs. induction levels as [|ds levels IH]; intros lo Hw Hg Hi Hf; [reflexivity|]. cbn [map recN_spec].
  pose proof (fit_step C nax L fs lo ds levels HC Hg Hf) as St. cbv zeta in St.
  assert (Eg : forall t, gather (seq 0 (List.length nax)) 0%nat (shp (fibre nax idx t)) = gather nax 0%nat (shp t)).
  { intros t. change (shp (fibre nax idx t)) with (gather nax 0%nat (shp t)). apply gather_seq_all. apply gather_length. }
  assert (Eo : recN_outs L (seq 0 (List.length nax)) (fibre nax idx lo) (map (map (fibre nax idx)) levels) = recN_outs L nax lo levels).
  { unfold recN_outs. destruct levels as [|[|h hs] rest]; cbn [map]; rewrite Eg; reflexivity. }
  rewrite Eo. set (outs := recN_outs L nax lo levels) in *. destruct St as (A1 & A2 & A3 & A4 & A5 & A6).
  assert (Hl : List.length ds = C) by (destruct Hf as [Hf _]; apply Forall_inv in Hf as [[Hf _] _]; exact Hf).
  rewrite IH; auto.
  - apply (f_equal (fun z => recN_spec L fs (seq 0 (List.length nax)) z (map (map (fibre nax idx)) levels))). unfold idwtN. rewrite Hfs.
    rewrite (fibre_idwt L (S C) (fun c => nth c fs []) nax idx (fun c => nth c (lo :: ds) lo) outs); [|lia|exact Hg|exact Hi| |exact A2].
    + apply idwt_axes_ext; [lia|auto|]. intros c Hc. change (fibre nax idx lo :: map (fibre nax idx) ds) with (map (fibre nax idx) (lo :: ds)). symmetry. apply map_nth.
    + intros c Hc. destruct c as [|c]; [reflexivity|]. cbn [nth]. rewrite Forall_forall in A1. apply A1. apply nth_In. lia.
  - rewrite A4. exact Hg.
  - unfold idwtN, idwt_axes. rewrite shp_make. cbn [nth]. apply fib_ok_shape. exact Hi.
Qed.
Lemma fibre_fit C nax L idx lo levels : (1 <= C)%nat -> coeffs_fit C nax L lo levels -> coeffs_fit C (seq 0 (List.length nax)) L (fibre nax idx lo) (map (map (fibre nax idx)) levels).
Proof.
  intros HC [Hall Hfit].
  assert (Eg : forall t, gather (seq 0 (List.length nax)) 0%nat (shp (fibre nax idx t)) = gather nax 0%nat (shp t)).
  { intros t. change (shp (fibre nax idx t)) with (gather nax 0%nat (shp t)). apply gather_seq_all. apply gather_length. }
  assert (Ef : forall t t', fsz (seq 0 (List.length nax)) (shp (fibre nax idx t)) = fsz (seq 0 (List.length nax)) (shp (fibre nax idx t'))).
  { intros t t'. unfold fsz. change (List.length (shp (fibre nax idx t))) with (rank (fibre nax idx t)). change (List.length (shp (fibre nax idx t'))) with (rank (fibre nax idx t')). rewrite !rank_fibre.
    replace (front_of (seq 0 (List.length nax)) (List.length nax)) with (@nil nat); [reflexivity|].
    unfold front_of. symmetry. apply filter_none. intros d Hd. apply memn_spec in Hd. rewrite Hd. reflexivity. }
  split.
  - apply Forall_map. eapply Forall_impl; [|exact Hall]. cbv beta. intros ds [(Hl & Hds & Heq) Ht]. split; [split; [rewrite map_length; exact Hl|split]|].
    + apply Forall_map, Forall_forall. intros d Hd. split; [apply wf_fibre|]. rewrite !rank_fibre. split; [reflexivity|apply Ef].
    + intros d d' Hd Hd'. apply in_map_iff in Hd as (u & <- & Hu). apply in_map_iff in Hd' as (u' & <- & Hu'). cbn. rewrite (Heq u u' Hu Hu'). reflexivity.
    + apply Forall_map. exact Ht.
  - rewrite Eg, map_map. replace (map (fun ds => lsizes (seq 0 (List.length nax)) (map (fibre nax idx) ds)) levels) with (map (lsizes nax) levels); [exact Hfit|].
    apply map_ext. intros [|h hs]; [reflexivity|]. cbn [lsizes map]. rewrite Eg. reflexivity.
Qed.
End UR.
