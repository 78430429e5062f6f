(** The synthesis step: stack + transposed convolution + crop, in N dimensions. *)
From Coq Require Import List Arith ZArith Lia Bool String.
From Coq Require Import ZifyNat ZifyBool.
From Verif Require Import Base Sums Tensor TensorFacts Util Spec CoreFacts Analysis PRKernel.
Import ListNotations.
Ltac Zify.zify_post_hook ::= Z.div_mod_to_equations.

Section Syn.
Context {K : CRing}.
Add Ring Kring : (cr_th K).
Implicit Types t u x : tensor K.

(** sum over taps hitting a given position = zero-extended tap *)
Lemma tapsz_sum (gs : list (list K)) L is ps : Forall (fun g => List.length g = L) gs ->
  List.length is = List.length gs -> List.length ps = List.length gs ->
  sumI (repeat L (List.length gs)) (fun js => if eqidx (map2 (fun i j => i * 2 + j * 1) is js) ps then taps gs js else kzero)
  = tapsz gs (map2 (fun p i => (Z.of_nat p - 2 * Z.of_nat i)%Z) ps is).
Proof.
  intros Hg. revert is ps. induction Hg as [|g gs Hg0 Hg IH]; intros [|i is] [|p ps] H1 H2; cbn [List.length] in *; try lia; [reflexivity|].
  cbn [repeat sumI map2 tapsz]. rewrite <- (IH is ps) by lia.
  transitivity (sumf L (fun j => kmul (if Nat.eqb (i * 2 + j * 1) p then nth j g kzero else kzero)
     (sumI (repeat L (List.length gs)) (fun js => if eqidx (map2 (fun i j => i * 2 + j * 1) is js) ps then taps gs js else kzero)))).
  { apply sumf_ext. intros j Hj. rewrite <- sumI_mul_l. apply sumI_ext. intros js _.
    unfold eqidx. cbn [map2 list_eqb taps]. destruct (Nat.eqb (i * 2 + j * 1) p); cbn [andb]; [|ring].
    destruct (list_eqb _ _ _); ring. }
  rewrite sumf_mul_r. f_equal.
  destruct (Z.ltb_spec (Z.of_nat p - 2 * Z.of_nat i) 0) as [Hn|Hn].
  - rewrite zget_neg by exact Hn. apply sumf_zero. intros j Hj.
    destruct (Nat.eqb_spec (i * 2 + j * 1) p); [lia|reflexivity].
  - destruct (Nat.lt_ge_cases (p - 2 * i) L) as [Hl|Hl].
    + rewrite (sumf_single L (p - 2 * i)); [|exact Hl|].
      * destruct (Nat.eqb_spec (i * 2 + (p - 2 * i) * 1) p); [|lia].
        rewrite <- zget_nat. f_equal. lia.
      * intros j Hj Hne. destruct (Nat.eqb_spec (i * 2 + j * 1) p); [lia|reflexivity].
    + rewrite zget_big by lia. apply sumf_zero. intros j Hj.
      destruct (Nat.eqb_spec (i * 2 + j * 1) p); [lia|reflexivity].
Qed.

Lemma F2_len {A B} (R : A -> B -> Prop) l l' : Forall2 R l l' -> List.length l = List.length l'.
Proof. intros H. induction H; cbn; congruence. Qed.

(** full transposed convolution of all channels, before cropping *)
Definition syn_full (g : tag) (b C L : nat) (gs : nat -> list (list K)) (coef : nat -> tensor K) (ks : list nat) : tensor K :=
  tmake g (b :: map (fun k => (k - 1) * 2 + L) ks)
    (fun idx => sumf C (fun c => sumI ks (fun is => kmul (get (coef c) (hd 0 idx :: is))
       (tapsz (gs c) (map2 (fun o i => (Z.of_nat o - 2 * Z.of_nat i)%Z) (tl idx) is))))).

Lemma stack_ok d t ts : Forall (fun u => shp u = shp t) ts ->
  stack d (t :: ts) = Ok (tmake (ttag t) (insertn d (S (List.length ts)) (shp t))
               (fun idx => get (nth (nth d idx 0) (t :: ts) t) (removen d idx))).
Proof.
  intros H. unfold stack. replace (forallb _ (t :: ts)) with true; [reflexivity|].
  symmetry. apply forallb_forall. intros u [<-|Hu]; [apply list_eqb_refl|].
  rewrite (proj1 (Forall_forall _ _) H u Hu). apply list_eqb_refl.
Qed.

Lemma synthesis_conv g b C L gs coef ks filt ts : ts = map coef (seq 0 C) -> 1 <= C -> 2 <= L ->
  (forall c, c < C -> shp (coef c) = b :: ks) -> ttag (coef 0) = g ->
  (forall k, In k ks -> 1 <= k) ->
  shp filt = C :: 1 :: repeat L (List.length ks) ->
  (forall c, c < C -> List.length (gs c) = List.length ks /\ Forall (fun f => List.length f = L) (gs c)) ->
  (forall c js, c < C -> valid js (repeat L (List.length ks)) -> get filt (c :: 0 :: js) = taps (gs c) js) ->
  exists st ct, stack 1 ts = Ok st /\ conv_transpose_nd 2 1 0 1 st filt = Ok ct /\
    squeeze ct 1 = syn_full g b C L gs coef ks.
Proof.
  intros -> HC HL Hshp Htag Hk Hf Hgl Hft.
  destruct C as [|C]; [lia|]. cbn [seq map].
  assert (Hall : Forall (fun u => shp u = shp (coef 0)) (map coef (seq 1 C))).
  { apply Forall_forall. intros u Hu. apply in_map_iff in Hu as (c & <- & Hc). apply in_seq in Hc.
    rewrite !Hshp by lia. reflexivity. }
  rewrite (stack_ok 1 _ _ Hall). rewrite map_length, seq_length.
  set (st := tmake _ _ _).
  assert (Hst : shp st = b :: S C :: ks).
  { unfold st. rewrite shp_make, Hshp by lia. reflexivity. }
  exists st. set (D := List.length ks) in *.
  assert (Hct : exists ct, conv_transpose_nd 2 1 0 1 st filt = Ok ct /\ ct =
     tmake g (b :: 1 :: map (fun k => (k - 1) * 2 + L) ks) (fun idx => match idx with
                 | ib :: co :: os => sumf (S C) (fun c => sumI ks (fun is => sumI (repeat L D) (fun js =>
                         if eqidx (map2 (fun i j => i * 2 + j * 1) is js) (map (fun o => o + 0) os)
                         then kmul (get st (ib :: (co / 1 * (S C) + c) :: is)) (get filt ((co / 1 * S C + c) :: co mod 1 :: js))
                         else kzero)))
                 | _ => kzero end)).
  { eexists. split; [|reflexivity]. unfold conv_transpose_nd. rewrite Hst, Hf. rewrite repeat_length.
    fold D. rewrite Nat.eqb_refl, Nat.eqb_refl. rewrite Nat.mod_1_r. change (Nat.ltb 0 1) with true. cbn [Nat.eqb andb].
    replace (forallb _ _) with true.
    - rewrite Nat.div_1_r. do 2 f_equal.
      + unfold st. rewrite ttag_make. exact Htag.
      + change (1 * 1) with 1. do 2 f_equal. unfold D. clear - HL. induction ks as [|k ks IH]; [reflexivity|].
        cbn [List.length repeat map2 map]. rewrite IH. f_equal. unfold convt_out. lia.
    - symmetry. unfold D. clear - Hk HL. induction ks as [|k ks IH]; [reflexivity|].
      cbn [List.length repeat map2 forallb]. rewrite IH by (intros; apply Hk; right; assumption).
      specialize (Hk k (or_introl eq_refl)). rewrite andb_true_r.
      apply andb_true_iff. split; [apply andb_true_iff; split|]; apply Nat.ltb_lt; lia. }
  destruct Hct as (ct & Hct1 & Hct2). exists ct. split; [reflexivity|]. split; [exact Hct1|].
  assert (Hsc : shp ct = [b] ++ 1 :: map (fun k => (k - 1) * 2 + L) ks) by (rewrite Hct2; reflexivity).
  apply t_ext.
  - apply wf_squeeze; [rewrite Hct2; apply wf_make|]. unfold rank. rewrite Hsc. cbn. lia.
  - apply wf_make.
  - rewrite ttag_squeeze, Hct2. reflexivity.
  - rewrite (shp_squeeze_app _ _ _ _ Hsc) by reflexivity. reflexivity.
  - intros idx Hv. rewrite (shp_squeeze_app _ _ _ _ Hsc) in Hv by reflexivity. cbn [app] in Hv.
    inversion Hv as [|ib b' os s' Hib Hos E1 E2]; subst idx b' s'.
    change (ib :: os) with ([ib] ++ os) at 1.
    rewrite (get_squeeze_app _ _ _ _ [ib] os Hsc) by reflexivity. cbn [app].
    rewrite Hct2. rewrite get_make by (constructor; [exact Hib|constructor; [lia|exact Hos]]).
    unfold syn_full. rewrite get_make by exact Hv. cbn [hd tl].
    apply sumf_ext. intros c Hc. rewrite Nat.div_1_r. change (0 * S C + c) with c. change (0 mod 1) with 0.
    assert (Hol : List.length os = D) by (apply valid_length in Hos; rewrite map_length in Hos; exact Hos).
    apply sumI_ext. intros is His. pose proof (valid_length _ _ His) as Hil. fold D in Hil.
    destruct (Hgl c Hc) as [Hgl1 Hgl2].
    transitivity (kmul (get (coef c) (ib :: is)) (sumI (repeat L D) (fun js =>
       if eqidx (map2 (fun i j => i * 2 + j * 1) is js) os then taps (gs c) js else kzero))).
    + rewrite <- sumI_mul_l. apply sumI_ext. intros js Hjs.
      replace (map (fun o => o + 0) os) with os
        by (rewrite <- (map_id os) at 1; apply map_ext; intros; lia).
      destruct (eqidx _ _); [|ring]. rewrite Hft by assumption. f_equal.
      unfold st. rewrite get_make.
      2:{ rewrite Hshp by lia. cbn. constructor; [exact Hib|constructor; [lia|exact His]]. }
      cbn [nth removen firstn skipn app]. f_equal.
      destruct c as [|c]; [reflexivity|]. rewrite (nth_map_in _ _ _ 0) by (rewrite seq_length; lia).
      rewrite seq_nth by lia. reflexivity.
    + f_equal. rewrite <- Hgl1. apply tapsz_sum; [exact Hgl2|lia|lia].
Qed.

(** cropped result: output sizes [outs], shifted by L-2 on every axis *)
Definition core_syn (g : tag) (b C L : nat) (gs : nat -> list (list K)) (coef : nat -> tensor K) (ks outs : list nat) : tensor K :=
  tmake g (b :: outs) (fun idx => sumf C (fun c => idwt_op L (gs c) ks (fun is => get (coef c) (hd 0 idx :: is)) (tl idx))).

(** a window of the trailing axes *)
Definition win (off : nat) (outs : list nat) t : tensor K :=
  tmake (ttag t) (hd 0 (shp t) :: outs) (fun idx => get t (hd 0 idx :: map (fun o => o + off) (tl idx))).

Lemma win_syn g b C L gs coef ks outs : 2 <= L ->
  Forall2 (fun o k => o + (L - 2) <= (k - 1) * 2 + L) outs ks ->
  win (L - 2) outs (syn_full g b C L gs coef ks) = core_syn g b C L gs coef ks outs.
Proof.
  intros HL Ho. unfold win, core_syn. cbn [syn_full ttag shp tmake hd].
  apply make_ext. intros idx Hv. inversion Hv as [|ib b' os s' Hib Hos E1 E2]; subst idx b' s'. cbn [hd tl].
  unfold syn_full. rewrite get_make.
  - cbn [hd tl]. apply sumf_ext. intros c Hc. unfold idwt_op. apply sumI_ext. intros is His. f_equal. f_equal.
    assert (Hl : List.length os = List.length is).
    { apply valid_length in Hos. apply valid_length in His. apply F2_len in Ho. lia. }
    clear - Hl HL. revert is Hl. induction os as [|o os IH]; intros [|i is] Hl; cbn in *; try lia; [reflexivity|].
    rewrite IH by lia. f_equal. lia.
  - constructor; [exact Hib|]. clear - Hos Ho. revert os Hos.
    induction Ho as [|o k outs ks H1 H2 IH]; intros os Hos; inversion Hos; subst; cbn; constructor.
    + lia.
    + apply IH. assumption.
Qed.

(** * cropping one axis (padl from the start, padr from the end) *)
Definition crop t (d padl padr : nat) : tensor K :=
  let r1 := if Nat.ltb 0 padl then slice_from t d padl else t in
  if Nat.ltb 0 padr then slice_dropend r1 d padr else r1.

Lemma narrow_all t d : wf t -> d < rank t -> narrow t d 0 (nth d (shp t) 0) = t.
Proof.
  intros Hw Hd. apply t_ext; [apply wf_make|exact Hw|reflexivity|cbn; apply updn_same|].
  intros idx Hv. cbn [narrow shp tmake] in Hv. rewrite get_narrow by exact Hv. rewrite Nat.add_0_r, updn_same. reflexivity.
Qed.

Lemma narrow_narrow t d a l b l' : b + l' <= l -> d < rank t -> narrow (narrow t d a l) d b l' = narrow t d (a + b) l'.
Proof.
  intros Hle Hd. apply t_ext; try apply wf_make; [reflexivity|cbn; apply updn_updn|].
  intros idx Hv. cbn [narrow shp tmake] in Hv. rewrite updn_updn in Hv.
  rewrite (get_narrow (narrow t d a l)) by (cbn [narrow shp tmake]; rewrite updn_updn; exact Hv).
  assert (Hn : nth d idx 0 < l').
  { pose proof (valid_nth _ _ d Hv) as H. rewrite updn_length in H. rewrite nth_updn_eq in H by exact Hd. apply H. exact Hd. }
  rewrite !get_narrow; [|exact Hv|].
  - rewrite nth_updn_eq by (apply valid_length in Hv; rewrite updn_length in Hv; rewrite Hv; exact Hd).
    rewrite updn_updn. f_equal. f_equal. lia.
  - rewrite <- (updn_updn d l l'). apply valid_updn; [exact Hv|lia].
Qed.

Lemma crop_narrow t d padl padr : wf t -> d < rank t -> padl <= nth d (shp t) 0 ->
  crop t d padl padr = narrow t d padl (nth d (shp t) 0 - padl - padr).
Proof.
  intros Hw Hd Hle. unfold crop. set (n := nth d (shp t) 0) in *.
  assert (H1 : (if Nat.ltb 0 padl then slice_from t d padl else t) = narrow t d padl (n - padl)).
  { destruct (Nat.ltb_spec 0 padl) as [Hp|Hp].
    - unfold slice_from. fold n. rewrite Nat.min_l by lia. reflexivity.
    - assert (padl = 0) as -> by lia. rewrite Nat.sub_0_r. symmetry. apply narrow_all; assumption. }
  rewrite H1. assert (Hn1 : nth d (shp (narrow t d padl (n - padl))) 0 = n - padl).
  { cbn. apply nth_updn_eq. exact Hd. }
  destruct (Nat.ltb_spec 0 padr) as [Hp|Hp].
  - unfold slice_dropend. rewrite Hn1. rewrite narrow_narrow by (try lia; exact Hd). f_equal. lia.
  - f_equal. lia.
Qed.

(** * perfect reconstruction of one level *)
Definition chan_ok (C D : nat) (chan : nat -> list nat) : Prop :=
  (forall c, c < C -> List.length (chan c) = D) /\
  forall f : list nat -> K, sumf C (fun c => f (chan c)) = sumI (repeat 2 D) f.

Lemma dwt_op_ana (fs : list (list K)) L m s X ks : Forall (fun f => List.length f = L) fs ->
  List.length ks = List.length fs -> dwt_op fs m s X ks = anaE fs L (ext_get m s X) ks.
Proof.
  intros Hf Hl. unfold dwt_op, anaE. rewrite (map_repeat_len fs L _ eq_refl Hf), Hl. reflexivity.
Qed.

Lemma syn_ana dlo dhi rlo rhi L C chan m b s u outs : cancel2 K -> pr_bank dlo dhi rlo rhi L ->
  shp u = b :: s -> chan_ok C (List.length s) chan -> Forall2 (fun o n => o <= even_up n) outs s ->
  core_syn (ttag u) b C L (fun c => bsels rlo rhi (chan c))
    (fun c => core_dwt (bsels dlo dhi (chan c)) m u) (map (dwt_len L) s) outs
  = core (fun _ => outs) (fun s X os => ext_get m s X (map Z.of_nat os)) u.
Proof.
  intros Hc H Hs [Hch1 Hch2] Ho. pose proof (pr_len _ _ _ _ _ H) as (H1 & H2 & H3 & H4).
  unfold core_syn, core. rewrite Hs. cbn [hd tl].
  apply make_ext. intros idx Hv. inversion Hv as [|ib b' os s' Hib Hos E1 E2]; subst idx b' s'. cbn [hd tl].
  assert (Hve : valid os (map even_up s)).
  { clear - Hos Ho. revert os Hos. induction Ho as [|o n outs s Ho1 Ho IH]; intros os Hos; inversion Hos; subst; cbn [map]; [constructor|]. apply Forall2_cons; [lia|apply IH; assumption]. }
  assert (Hlos : List.length os = List.length s) by (apply valid_length in Hve; rewrite map_length in Hve; exact Hve).
  rewrite <- (pr_kernel dlo dhi rlo rhi L (ext_get m s (fun is => get u (ib :: is))) s os Hc H Hve).
  rewrite <- Hch2. apply sumf_ext. intros c Hcc.
  assert (Hlf : forall lo hi : list K, List.length lo = L -> List.length hi = L -> Forall (fun f => List.length f = L) (bsels lo hi (chan c))).
  { intros lo hi Hlo Hhi. apply Forall_forall. intros f Hf. apply in_map_iff in Hf as (bb & <- & _). destruct bb; assumption. }
  assert (Hll : forall lo hi : list K, List.length (bsels lo hi (chan c)) = List.length s) by (intros; unfold bsels; rewrite map_length; auto).
  unfold idwt_op. apply sumI_ext. intros ks Hks.
  pose proof (valid_length _ _ Hks) as Hkl. rewrite map_length in Hkl.
  assert (Hosz : map2 (fun f n => dwt_len (List.length f) n) (bsels dlo dhi (chan c)) s = map (dwt_len L) s)
    by (apply dwt_sizes; auto).
  unfold core_dwt. rewrite get_core; rewrite Hs; cbn [hd tl]; [|exact Hib|rewrite Hosz; exact Hks].
  rewrite (dwt_op_ana _ L) by (auto; rewrite Hll; exact Hkl).
  transitivity (kmul (anaE (bsels dlo dhi (chan c)) L (ext_get m s (fun is => get u (ib :: is))) ks)
    (sumI (repeat L (List.length s)) (fun js => if eqidx (map2 (fun i j => i * 2 + j * 1) ks js) (map (fun o => o + (L - 2)) os)
        then taps (bsels rlo rhi (chan c)) js else kzero))).
  - f_equal. rewrite <- (Hll rlo rhi). rewrite tapsz_sum; [|auto|rewrite Hll; exact Hkl|rewrite map_length, Hll; exact Hlos].
    f_equal. pose proof (pr_two _ _ _ _ _ H) as HL. clear - Hkl Hlos HL. rewrite <- Hkl in Hlos. clear Hkl. revert ks Hlos.
    induction os as [|o os IH]; intros [|k ks] Hl; cbn in *; try lia; [reflexivity|]. rewrite <- IH by lia. f_equal. lia.
  - rewrite <- sumI_mul_l. apply sumI_ext. intros js Hjs.
    replace (map2 (fun i j => i * 2 + j * 1) ks js) with (map2 (fun k j => 2 * k + j) ks js)
      by (apply map2_ext_in; intros; lia).
    destruct (eqidx _ _); ring.
Qed.

Lemma ext_idxs_id m s os : valid os s -> ext_idxs m s (map Z.of_nat os) = Some os.
Proof.
  intros H. induction H as [|o n os s Ho Hv IH]; [reflexivity|]. cbn [map ext_idxs]. rewrite IH.
  replace (ext_idx m n (Z.of_nat o)) with (Some o); [reflexivity|]. symmetry.
  unfold ext_idx. destruct m; cbv zeta.
  - replace ((0 <=? Z.of_nat o) && (Z.of_nat o <? Z.of_nat n))%Z with true by lia. f_equal. lia.
  - f_equal. lia.
  - f_equal. rewrite Z.mod_small by lia. lia.
  - f_equal. rewrite Z.mod_small by lia. destruct (Z.ltb_spec (Z.of_nat o) (Z.of_nat n)); lia.
  - f_equal. destruct (Nat.eq_dec n 1) as [->|Hn].
    + assert (o = 0) as -> by lia. reflexivity.
    + rewrite Z.mod_small by lia. destruct (Z.ltb_spec (Z.of_nat o) (Z.of_nat n)); lia.
Qed.

Lemma ext_get_id m s X os : valid os s -> ext_get m s X (map Z.of_nat os) = X os :> K.
Proof. intros H. unfold ext_get. rewrite ext_idxs_id by exact H. reflexivity. Qed.

Lemma core_ext_id m u b s : wf u -> shp u = b :: s ->
  core (fun _ => s) (fun s X os => ext_get m s X (map Z.of_nat os)) u = u.
Proof.
  intros Hw Hs. apply t_ext; auto using wf_core.
  - rewrite shp_core, Hs. reflexivity.
  - intros idx Hv. rewrite shp_core, Hs in Hv. cbn [hd] in Hv.
    inversion Hv as [|ib b' os s' Hib Hos E1 E2]; subst idx b' s'.
    rewrite get_core; [rewrite Hs; cbn [tl]; rewrite ext_get_id by exact Hos; reflexivity|rewrite Hs; exact Hib|exact Hos].
Qed.

End Syn.
