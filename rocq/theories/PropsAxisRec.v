(** C76, synthesis: the n-d reconstruction functions apply the one-dimensional one to one axis after the other. *)
From Coq Require Import List Arith ZArith Lia Bool String Ascii.
From Verif Require Import Base Sums Tensor TensorFacts Util Perm Plumb Accept Spec Spec2 SpecSep Conv1 PadFacts CoreFacts Synthesis Filters Wave1 Rec1 Conv2 Conv3 WaveN RecN Sep SepFacts SepRec SepRec2 SepRec3 Props1 Unified UnifiedRec PropsAxisWise.
Import ListNotations.

(** [synth_tree w axes Y]: waverec joins Y ("a" ++ s) and Y ("d" ++ s) along the axis the new letter belongs to *)
Definition synth_tree {K : CRing} (w : wavelet K) (axes : list Z) (Y : string -> tensor K) : Prop :=
  forall s, ad_word s -> String.length s < List.length axes ->
    waverec [PT (Y (String "a" s)); PT (Y (String "d" s))] w (AxInt (nth (List.length axes - 1 - String.length s) axes 0%Z)) = Ok (Y s).

(** the coefficient container of one level (the same arrangement as in [collect]) *)
Definition arranged {K : CRing} (S : synth) (Y : string -> tensor K) : pycoeffs K :=
  collect (match S with Swaverec2 h => Twavedec2 h | Swaverec3 h => Twavedec3 h | Sfswaverec2 h => Tfswavedec2 h | Sfswaverec3 h => Tfswavedec3 h end) Y.

Section AR.
Context {K : CRing}.
Add Ring Kring : (cr_th K).
Implicit Types x y : tensor K.
Implicit Types w : wavelet K.

Lemma one_rec lo hi w L axis : wf lo -> wf hi -> shp hi = shp lo -> ttag hi = ttag lo -> is_dtype_supported (tdtype lo) = true -> axis_ok (rank lo) axis ->
  List.length (rec_lo w) = L -> List.length (rec_hi w) = L -> 2 <= L -> let a := norm_axis (rank lo) axis in 1 <= nth a (shp lo) 0 ->
  waverec [PT lo; PT hi] w (AxInt axis) = Ok (idwt1 L (rec_lo w) (rec_hi w) a lo hi (2 * nth a (shp lo) 0 + 2 - L)).
Proof.
  intros Hw Hw' Hs Ht Hd Hax H1 H2 HL a Hk.
  apply (waverec_ok lo [hi] w L axis (AxInt axis)); auto.
  - constructor; [|constructor]. unfold rank. rewrite Hs. auto.
  - cbn [map lens_fit]. unfold alen. rewrite Hs. auto.
Qed.

(** one level of synthesis along all axes, as a family indexed by words: the last axes still carry letters *)
Fixpoint joined (L : nat) (rlo rhi : list K) (nax outs : list nat) (Y : string -> tensor K) {struct nax} : string -> tensor K :=
  match nax, outs with
  | a :: nax', o :: outs' => joined L rlo rhi nax' outs' (fun s => idwt1 L rlo rhi a (Y (String "a" s)) (Y (String "d" s)) o)
  | _, _ => Y
  end.
Lemma joined_idwtW L rlo rhi : forall nax outs Y sh g, List.length outs = List.length nax ->
  (forall s, ad_word s -> String.length s = List.length nax -> wf (Y s) /\ shp (Y s) = sh /\ ttag (Y s) = g) -> good_axes (List.length sh) nax ->
  joined L rlo rhi nax outs Y EmptyString = idwtW L rlo rhi (List.length nax) nax Y outs.
Proof.
  induction nax as [|a nax IH]; intros [|o outs] Y sh g Hl HY Hg; try discriminate Hl; cbn [joined List.length].
  - unfold idwtW. cbv zeta. destruct (HY EmptyString (adw EmptyString eq_refl) eq_refl) as (Hw & Hs & Ht).
    apply t_ext; [exact Hw|apply wf_make|reflexivity|reflexivity|]. intros idx Hv. rewrite get_make by exact Hv. cbn. unfold idwt_op. cbn. ring.
  - cbn [List.length] in HY. rewrite (idwtW_cons L rlo rhi (List.length nax) a nax o outs Y sh g); [|intros s Hs Hls; destruct (HY s Hs Hls) as (_ & A & B); split; assumption|exact Hg].
    apply (IH outs _ (updn a o sh) g); [cbn in Hl; lia| |].
    + intros s Hs Hls. destruct (HY (String "a" s)) as (_ & A & B); [apply ad_cons; auto|cbn; lia|]. split; [apply wf_make|].
      unfold idwt1, idwt_axes. rewrite shp_make, A. split; [reflexivity|exact B].
    + rewrite updn_length. apply good_cons in Hg. tauto.
Qed.

(** the whole family, for a list of axes: leaves [leaf], interior nodes joined *)
Lemma tree_exists w L : List.length (rec_lo w) = L -> List.length (rec_hi w) = L -> 2 <= L -> forall axes r sh g leaf,
  (forall s, ad_word s -> String.length s = List.length axes -> wf (leaf s) /\ shp (leaf s) = sh /\ ttag (leaf s) = g) ->
  List.length sh = r -> axes_ok r axes -> is_dtype_supported (fst g) = true -> Forall (fun k => 1 <= k) (gather (map (norm_axis r) axes) 0 sh) ->
  exists Y : string -> tensor K, (forall s, String.length s = List.length axes -> Y s = leaf s) /\ synth_tree w axes Y /\
    Y EmptyString = joined L (rec_lo w) (rec_hi w) (map (norm_axis r) axes) (map (fun k => 2 * k + 2 - L) (gather (map (norm_axis r) axes) 0 sh)) leaf EmptyString.
Proof.
  intros H1 H2 HL. induction axes as [|ax axes IH]; intros r sh g leaf Hleaf Hr Hax Hd Hk.
  - exists leaf. split; [reflexivity|]. split; [|reflexivity]. intros s _ Hs. cbn in Hs. lia.
  - pose proof (good_axes_ok _ _ Hax) as Hg. cbn [map] in Hg, Hk |- *. cbn [gather map] in Hk |- *. set (a := norm_axis r ax) in *. apply good_cons in Hg as (Hna & Har & Hg').
    inversion Hk as [|? ? K1 K2]; subst x. cbn [joined].
    set (leaf' := fun s => idwt1 L (rec_lo w) (rec_hi w) a (leaf (String "a" s)) (leaf (String "d" s)) (2 * nth a sh 0 + 2 - L)).
    assert (Ga : gather (map (norm_axis r) axes) 0 (updn a (2 * nth a sh 0 + 2 - L) sh) = gather (map (norm_axis r) axes) 0 sh).
    { change (updn a (2 * nth a sh 0 + 2 - L) sh) with (upds [a] [2 * nth a sh 0 + 2 - L] sh). apply gather_upds_notin. intros d Hd' [<-|[]]. exact (Hna Hd'). }
    assert (Hax' : axes_ok r axes) by (destruct Hax as [A B]; split; [inversion A; assumption|inversion B; assumption]).
    destruct (IH r (updn a (2 * nth a sh 0 + 2 - L) sh) g leaf') as (Y & Y1 & Y2 & Y3).
    + intros s Hs Hls. destruct (Hleaf (String "a" s)) as (_ & A & B); [apply ad_cons; auto|cbn; lia|]. split; [apply wf_make|].
      unfold leaf', idwt1, idwt_axes. rewrite shp_make, A. split; [reflexivity|exact B].
    + rewrite updn_length. exact Hr.
    + exact Hax'.
    + exact Hd.
    + rewrite Ga. exact K2.
    + rewrite Ga in Y3. exists (fun s => if Nat.eqb (String.length s) (S (List.length axes)) then leaf s else Y s).
      split; [intros s Hs; cbn in Hs; rewrite Hs, Nat.eqb_refl; reflexivity|]. split.
      * intros s Hs Hls. cbn [List.length String.length] in Hls |- *.
        destruct (Nat.eqb_spec (String.length s) (S (List.length axes))) as [E|_]; [lia|].
        destruct (Nat.eqb_spec (S (String.length s)) (S (List.length axes))) as [E|Hne].
        -- replace (S (List.length axes) - 1 - String.length s) with 0 by lia. cbn [nth].
           destruct (Hleaf (String "a" s)) as (A1 & A2 & A3); [apply ad_cons; auto|cbn; lia|].
           destruct (Hleaf (String "d" s)) as (B1 & B2 & B3); [apply ad_cons; auto|cbn; lia|].
           assert (Ra : rank (leaf (String "a" s)) = r) by (unfold rank; rewrite A2; exact Hr).
           rewrite (one_rec _ _ w L ax A1 B1); [| rewrite A2, B2; reflexivity|rewrite A3, B3; reflexivity|unfold tdtype; rewrite A3; exact Hd|rewrite Ra; destruct Hax as [A _]; inversion A; assumption|exact H1|exact H2|exact HL|rewrite Ra, A2; exact K1].
           rewrite Ra, A2. fold a. rewrite Y1 by lia. reflexivity.
        -- replace (S (List.length axes) - 1 - String.length s) with (S (List.length axes - 1 - String.length s)) by lia. cbn [nth]. apply Y2; [exact Hs|lia].
      * cbn [String.length Nat.eqb]. rewrite Y3. reflexivity.
Qed.

(** ** C76 for waverec2, waverec3, fswaverec2 and fswaverec3: coefficients of one level (all of one shape, as every analysis produces them) *)
Theorem C76_synthesis S w L axes leaf sh g : List.length (rec_lo w) = L -> List.length (rec_hi w) = L -> 2 <= L ->
  hint_axes (shint S) (sdim S) = Some axes -> List.length axes = sdim S -> axes_ok (List.length sh) axes ->
  (forall s, ad_word s -> String.length s = sdim S -> wf (leaf s) /\ shp (leaf s) = sh /\ ttag (leaf s) = g) ->
  is_dtype_supported (fst g) = true -> Forall (fun k => 1 <= k) (gather (map (norm_axis (List.length sh)) axes) 0 sh) ->
  exists Y : string -> tensor K, (forall s, String.length s = sdim S -> Y s = leaf s) /\ synth_tree w axes Y /\
    synthesise S (arranged S leaf) w = Ok (Y EmptyString).
Proof.
  intros H1 H2 HL Hh Hla Hax Hleaf Hd Hk. set (nax := map (norm_axis (List.length sh)) axes) in *.
  assert (Hn : List.length nax = sdim S) by (unfold nax; rewrite map_length; exact Hla).
  pose proof Hleaf as Hleaf0. rewrite <- Hla in Hleaf0.
  destruct (tree_exists w L H1 H2 HL axes _ sh g leaf Hleaf0 eq_refl Hax Hd Hk) as (Y & Y1 & Y2 & Y3). rewrite Hla in Y1.
  exists Y. split; [exact Y1|]. split; [exact Y2|]. rewrite Y3. fold nax.
  pose proof (good_axes_ok _ _ Hax) as Hg. fold nax in Hg.
  rewrite (joined_idwtW L _ _ nax _ leaf sh g); [|rewrite map_length; unfold gather; rewrite map_length; reflexivity|rewrite Hn; exact Hleaf|exact Hg].
  rewrite Hn.
  set (A := leaf (akey (sdim S))). destruct (Hleaf (akey (sdim S)) (akey_ad _) (akey_length _)) as (A1 & A2 & A3). fold A in A1, A2, A3.
  assert (Hw : forall s, ad_word s -> String.length s = sdim S -> wf (leaf s) /\ rank (leaf s) = rank A /\ fsz nax (shp (leaf s)) = fsz nax (shp A) /\ ttag (leaf s) = ttag A /\ shp (leaf s) = shp A).
  { intros s Hs Hls. destruct (Hleaf s Hs Hls) as (B1 & B2 & B3). unfold rank. rewrite A2, A3, B2, B3. auto. }
  set (ds := map leaf (match S with Swaverec2 _ | Sfswaverec2 _ => ["da"; "ad"; "dd"] | Swaverec3 _ => ["aad"; "ada"; "add"; "daa"; "dad"; "dda"; "ddd"] | Sfswaverec3 _ => ["daa"; "ada"; "dda"; "aad"; "dad"; "add"; "ddd"] end)%string).
  assert (Hc : arranged S leaf = container S A [ds]) by (destruct S; reflexivity).
  assert (Hds : Forall (fun t => wf t /\ rank t = rank A /\ fsz nax (shp t) = fsz nax (shp A) /\ ttag t = ttag A /\ shp t = shp A) ds).
  { unfold ds. apply Forall_map. destruct S; repeat (constructor; [apply Hw; [apply adw; reflexivity|reflexivity]|]); constructor. }
  rewrite Hc, (synth_ok S A [ds] w L axes); auto.
  - unfold rank. rewrite A2. fold nax. cbn [recN_spec recN_outs]. rewrite A2. f_equal.
    unfold idwtW, idwtN, idwt_axes. cbv zeta. cbn [nth]. fold A. apply make_ext. intros idx _.
    destruct S; unfold ds, A, akey, schans, chans2, chans3, chansW, keys3, key_filters; cbn; ring.
  - unfold tdtype. rewrite A3. exact Hd.
  - unfold rank. rewrite A2. exact Hax.
  - unfold rank at 1. rewrite A2. fold nax. split.
    + constructor; [|constructor]. split; [split; [|split]|].
      * unfold ds. rewrite map_length. destruct S; reflexivity.
      * eapply Forall_impl; [|exact Hds]. cbv beta. tauto.
      * rewrite Forall_forall in Hds. intros t u Ht Hu. destruct (Hds t Ht) as (_ & _ & _ & _ & E). destruct (Hds u Hu) as (_ & _ & _ & _ & E'). congruence.
      * eapply Forall_impl; [|exact Hds]. cbv beta. tauto.
    + cbn [map sizes_fit]. split; [|split; [rewrite A2; exact Hk|exact I]]. rewrite Forall_forall in Hds. destruct ds as [|t ds'] eqn:Eds; [destruct S; discriminate Eds|].
      cbn [lsizes]. destruct (Hds t (or_introl eq_refl)) as (_ & _ & _ & _ & E). rewrite E. reflexivity.
Qed.
End AR.
