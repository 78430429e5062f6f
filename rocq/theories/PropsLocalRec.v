(** C79: a reconstructed sample depends only on the coefficients whose window (C68) contains it. *)
From Coq Require Import List Arith ZArith Lia Bool String Ascii.
From Coq Require Import ZifyNat ZifyBool.
From Verif Require Import Base Sums Tensor TensorFacts Util Perm Plumb Accept Spec Conv1 PadFacts CoreFacts Analysis AnalysisInv PRKernel Synthesis Filters Lin Wave1 Rec1 Rec1Inv Props1 Conv2 Conv3 Spec2 WaveN RecN Sep SpecSep SepFacts UnifiedRec Local PropsLocal Examples.
Import ListNotations.
Local Open Scope nat_scope.

Section LR.
Context {K : CRing}.
Add Ring Kring : (cr_th K).
Implicit Types lo t y : tensor K.
Implicit Types w : wavelet K.
Implicit Types levels : list (list (tensor K)).

(** ** specification *)
(** the level-j coefficients t and t' agree wherever their window contains sample os (axes nax, other indices from idx) *)
Definition agree_at (L j : nat) (nax idx os : list nat) t (t' : tensor K) : Prop :=
  forall ks, valid ks (gather nax 0 (shp t)) -> in_window L j ks os -> get t (upds nax ks idx) = get t' (upds nax ks idx).
(** ... at all levels, the coarsest first *)
Fixpoint levels_agree (L : nat) (nax idx os : list nat) levels levels' : Prop :=
  match levels, levels' with
  | ds :: rest, ds' :: rest' => Forall2 (agree_at L (S (List.length rest)) nax idx os) ds ds' /\ levels_agree L nax idx os rest rest'
  | [], [] => True
  | _, _ => False
  end.

(** ** proof *)
Lemma tapsz_window L (gs : list (list K)) : forall os ks, Forall (fun g => List.length g = L) gs -> List.length os = List.length gs -> List.length ks = List.length gs -> 2 <= L ->
  tapsz gs (map2 (fun o k => (Z.of_nat o + Z.of_nat L - 2 - 2 * Z.of_nat k)%Z) os ks) = kzero \/ in_window L 1 ks os.
Proof.
  induction gs as [|g gs IH]; intros [|o os] [|k ks] HF H1 H2 HL; try discriminate; [right; constructor|]. cbn [map2 tapsz].
  pose proof (Forall_inv HF) as Hg. cbn in Hg. destruct (IH os ks (Forall_inv_tail HF) ltac:(cbn in *; lia) ltac:(cbn in *; lia) HL) as [E|E]; [left; rewrite E; ring|].
  destruct (Z_lt_dec (Z.of_nat o + Z.of_nat L - 2 - 2 * Z.of_nat k) 0) as [Hlt|Hge]; [left; rewrite zget_neg by exact Hlt; ring|].
  destruct (Z_le_dec (Z.of_nat L) (Z.of_nat o + Z.of_nat L - 2 - 2 * Z.of_nat k)) as [Hb|Hs]; [left; rewrite zget_big by (rewrite Hg; exact Hb); ring|].
  right. constructor; [cbn [Nat.pow]; lia|exact E].
Qed.
Lemma window_comp L j ks1 : forall ks os, in_window L 1 ks ks1 -> in_window L j ks1 os -> in_window L (S j) ks os.
Proof.
  unfold in_window. induction ks1 as [|k1 ks1 IH]; intros ks os H1 H2; inversion H1; inversion H2; subst; constructor.
  - cbn [Nat.pow] in *. pose proof (pow_pos j) as HM. set (M := 2 ^ j) in *. nia.
  - apply IH; assumption.
Qed.
Lemma window_len L j ks os : in_window L j ks os -> List.length ks = List.length os.
Proof. apply F2_len. Qed.
Lemma get_idwtN L (fs : list (list (list K))) nax idx lo ds outs ks : good_axes (rank lo) nax -> List.length outs = List.length nax -> fib_ok nax idx (shp lo) -> valid ks outs ->
  get (idwtN L fs nax lo ds outs) (upds nax ks idx) =
  sumf (List.length fs) (fun c => idwt_op L (nth c fs []) (gather nax 0 (shp lo)) (fun is => get (nth c (lo :: ds) lo) (upds nax is idx)) ks).
Proof.
  intros [Hnd Hin] Ho Hi Hv. unfold idwtN, idwt_axes. cbn [nth].
  assert (Lk : List.length ks = List.length nax) by (rewrite (valid_length _ _ Hv); exact Ho).
  rewrite get_make.
  - apply sumf_ext. intros c _. rewrite gather_upds by (auto; rewrite (proj1 Hi); exact Hin). unfold idwt_op. apply sumI_ext. intros is His. f_equal. f_equal.
    apply upds_upds; [exact Hnd|]. apply F2_len in His. rewrite His, gather_length. lia.
  - apply fib_valid; [exact Hnd|rewrite upds_length; exact Hin|apply fib_ok_shape; exact Hi|]. rewrite gather_upds by (auto; exact Hin). exact Hv.
Qed.
Lemma step_agree C L (fs : list (list (list K))) nax idx os j lo lo' ds ds' outs : 2 <= L -> List.length fs = S C -> Forall (fun gs => List.length gs = List.length nax /\ Forall (fun g => List.length g = L) gs) fs ->
  good_axes (rank lo) nax -> fib_ok nax idx (shp lo) -> shp lo' = shp lo -> Forall (fun d => shp d = shp lo) ds -> List.length ds = C -> List.length outs = List.length nax ->
  agree_at L (S j) nax idx os lo lo' -> Forall2 (agree_at L (S j) nax idx os) ds ds' ->
  agree_at L j nax idx os (idwtN L fs nax lo ds outs) (idwtN L fs nax lo' ds' outs).
Proof.
  intros HL Hfs Hgs Hg Hi Hs Hds Hl Ho Ha Hd ks Hv Hw. pose proof Hg as [Hnd Hin].
  destruct (idwtN_facts L fs nax lo ds outs Hg Ho) as (_ & _ & _ & _ & Eo). rewrite Eo in Hv.
  assert (Lk : List.length ks = List.length nax) by (rewrite (valid_length _ _ Hv); exact Ho).
  assert (Hr' : rank lo' = rank lo) by (unfold rank; rewrite Hs; reflexivity).
  rewrite !get_idwtN; auto; [|rewrite Hr'; exact Hg|rewrite Hs; exact Hi]. rewrite Hs. apply sumf_ext. intros c Hc. unfold idwt_op. apply sumI_ext. intros ks2 Hk2.
  assert (Lk2 : List.length ks2 = List.length nax) by (apply F2_len in Hk2; rewrite Hk2, gather_length; reflexivity).
  rewrite Forall_forall in Hgs. destruct (Hgs (nth c fs [])) as [G1 G2]; [apply nth_In; exact Hc|].
  destruct (tapsz_window L (nth c fs []) ks ks2 G2 ltac:(lia) ltac:(lia) HL) as [E|E]; [rewrite E; ring|]. f_equal.
  pose proof (window_comp L j ks ks2 os E Hw) as HW.
  destruct c as [|c]; cbn [nth]; [apply Ha; assumption|].
  assert (Hcd : c < List.length ds) by lia.
  assert (Gd : forall l l' d d', Forall2 (agree_at L (S j) nax idx os) l l' -> c < List.length l -> agree_at L (S j) nax idx os (nth c l d) (nth c l' d')).
  { clear. intros l l' d d' H. revert c. induction H as [|t t' l l' Ht H IH]; intros c Hc; [cbn in Hc; lia|]. destruct c; [exact Ht|]. apply IH. cbn in Hc. lia. }
  apply (Gd ds ds' lo lo' Hd Hcd); [|exact HW]. rewrite Forall_forall in Hds. rewrite (Hds (nth c ds lo)) by (apply nth_In; exact Hcd). exact Hk2.
Qed.
Lemma recN_local C nax L (fs : list (list (list K))) idx os : 1 <= C -> 2 <= L -> List.length fs = S C -> Forall (fun gs => List.length gs = List.length nax /\ Forall (fun g => List.length g = L) gs) fs ->
  forall levels levels' lo lo', shp lo' = shp lo -> good_axes (rank lo) nax -> fib_ok nax idx (shp lo) ->
  coeffs_fit C nax L lo levels -> coeffs_fit C nax L lo' levels' -> same_shapes levels levels' ->
  agree_at L (List.length levels) nax idx os lo lo' -> levels_agree L nax idx os levels levels' ->
  agree_at L 0 nax idx os (recN_spec L fs nax lo levels) (recN_spec L fs nax lo' levels').
Proof.
  intros HC HL Hfs Hgs. induction levels as [|ds levels IH]; intros levels' lo lo' Hs Hg Hi Hf Hf' Hss Ha Hla; inversion Hss as [|? ds' ? rest' Hds Hss']; subst; [exact Ha|].
  cbn [recN_spec List.length] in *. destruct Hla as [Hla Hrest].
  assert (Hr : rank lo' = rank lo) by (unfold rank; rewrite Hs; reflexivity). assert (Hg' : good_axes (rank lo') nax) by (rewrite Hr; exact Hg).
  assert (Eo : recN_outs L nax lo' rest' = recN_outs L nax lo levels).
  { unfold recN_outs. destruct Hss' as [|[|h e] [|h' e'] ? ? Hh _]; try (rewrite Hs; reflexivity); inversion Hh; subst. congruence. }
  pose proof (fit_step C nax L fs lo ds levels HC Hg Hf) as St. pose proof (fit_step C nax L fs lo' ds' rest' HC Hg' Hf') as St'. cbv zeta in St, St'. rewrite Eo in St' |- *.
  set (outs := recN_outs L nax lo levels) in *. destruct St as (A1 & A2 & A3 & A4 & A5 & A6). destruct St' as (B1 & B2 & B3 & B4 & B5 & B6).
  assert (Hl : List.length ds = C) by (destruct Hf as [Hf _]; apply Forall_inv in Hf as [[Hf _] _]; exact Hf).
  apply IH; auto.
  - unfold idwtN, idwt_axes. rewrite !shp_make. cbn [nth]. rewrite Hs. reflexivity.
  - rewrite A4. exact Hg.
  - unfold idwtN, idwt_axes. rewrite shp_make. cbn [nth]. apply fib_ok_shape. exact Hi.
  - apply (step_agree C); auto. eapply Forall_impl; [|exact A1]. cbv beta. tauto.
Qed.
Lemma chans_ok S (rlo rhi : list K) L : List.length rlo = L -> List.length rhi = L -> Forall (fun gs => List.length gs = sdim S /\ Forall (fun g => List.length g = L) gs) (schans S rlo rhi).
Proof. intros H1 H2. destruct S; cbn; repeat (constructor; [split; [reflexivity|repeat constructor; assumption]|]); constructor. Qed.
Lemma agree_0 L nax idx os t t' : agree_at L 0 nax idx os t t' -> valid os (gather nax 0 (shp t)) -> get t (upds nax os idx) = get t' (upds nax os idx).
Proof. intros H Hv. apply H; [exact Hv|apply window_0_refl]. Qed.

(** ** C79 for waverec2, waverec3, fswaverec2 and fswaverec3 *)
Theorem C79_synthesis_local S lo lo' levels levels' w L axes y y' :
  wf lo -> wf lo' -> shp lo' = shp lo -> ttag lo' = ttag lo -> is_dtype_supported (tdtype lo) = true ->
  hint_axes (shint S) (sdim S) = Some axes -> List.length axes = sdim S -> axes_ok (rank lo) axes ->
  List.length (rec_lo w) = L -> List.length (rec_hi w) = L -> 2 <= L ->
  let nax := map (norm_axis (rank lo)) axes in
  coeffs_fit (sdets S) nax L lo levels -> coeffs_fit (sdets S) nax L lo' levels' -> same_shapes levels levels' ->
  synthesise S (container S lo levels) w = Ok y -> synthesise S (container S lo' levels') w = Ok y' ->
  forall os idx, fib_ok nax idx (shp lo) -> valid os (gather nax 0 (shp y)) ->
    agree_at L (List.length levels) nax idx os lo lo' -> levels_agree L nax idx os levels levels' ->
    get y (upds nax os idx) = get y' (upds nax os idx).
Proof.
  intros Hw Hw' Hs Ht Hd Hh Hl Hax H1 H2 HL nax Hf Hf' Hss Ey Ey' os idx Hi Hv Ha Hla.
  assert (Hr : rank lo' = rank lo) by (unfold rank; rewrite Hs; reflexivity).
  rewrite (synth_ok S lo levels w L axes) in Ey by assumption. apply ok_inj in Ey.
  rewrite (synth_ok S lo' levels' w L axes) in Ey'; try assumption; [|unfold tdtype; rewrite Ht; exact Hd|rewrite Hr; exact Hax|rewrite Hr; exact Hf'].
  apply ok_inj in Ey'. rewrite Hr in Ey'. subst y y'. fold nax in Hv |- *. apply (agree_0 L); [|exact Hv].
  apply (recN_local (sdets S)); auto.
  - destruct S; cbn; lia.
  - apply schans_len.
  - unfold nax. rewrite map_length, Hl. apply chans_ok; assumption.
  - apply good_axes_ok. exact Hax.
Qed.

(** ** C79 for waverec *)
Lemma waverec_as_recN L (rlo rhi : list K) a his : forall lo, waverec_spec L rlo rhi a lo his = recN_spec L [[rlo]; [rhi]] [a] lo (map (fun h => [h]) his).
Proof.
  induction his as [|h his IH]; intros lo; [reflexivity|]. cbn [waverec_spec map recN_spec]. rewrite IH. f_equal.
  unfold idwt1, idwtN. replace (recN_outs L [a] lo (map (fun h => [h]) his)) with [rec_len L a lo his] by (destruct his; reflexivity). reflexivity.
Qed.
Theorem C79_waverec_1d (n : nat) (lo lo' : tensor K) his his' w L y y' :
  Forall (fun t => wf t /\ rank t = 1) (lo :: his) -> Forall (fun t => wf t /\ rank t = 1) (lo' :: his') -> map (@shp K) (lo' :: his') = map (@shp K) (lo :: his) ->
  List.length (rec_lo w) = L -> List.length (rec_hi w) = L -> 2 <= L ->
  waverec (map PT (lo :: his)) w (AxInt (-1)) = Ok y -> waverec (map PT (lo' :: his')) w (AxInt (-1)) = Ok y' ->
  let J := List.length his in
  (** the approximation coefficients that reach sample n *)
  (forall k, k < nth 0 (shp lo) 0 -> 2 ^ J * k <= n + (2 ^ J - 1) * (L - 2) -> n < 2 ^ J * (k + 1) -> get lo [k] = get lo' [k]) ->
  (** the detail coefficients that reach sample n *)
  (forall j k, 1 <= j <= J -> k < nth 0 (shp (nth (J - j) his lo)) 0 -> 2 ^ j * k <= n + (2 ^ j - 1) * (L - 2) -> n < 2 ^ j * (k + 1) ->
     get (nth (J - j) his lo) [k] = get (nth (J - j) his' lo') [k]) ->
  n < nth 0 (shp y) 0 -> get y [n] = get y' [n].
Proof.
  intros Hwf Hwf' Hs H1 H2 HL Hy Hy' J Hlo Hhi Hn.
  destruct (waverec_inv _ w L _ y H1 H2 HL Hy) as (ax & lo0 & his0 & Eh & Ec & Hd & Ht & Hax & Hfit).
  destruct (waverec_inv _ w L _ y' H1 H2 HL Hy') as (ax' & lo0' & his0' & Eh' & Ec' & Hd' & Ht' & Hax' & Hfit').
  cbn in Eh, Eh'. injection Eh as <-. injection Eh' as <-.
  assert (inj : forall l l' : list (tensor K), map PT l = map PT l' -> l = l').
  { induction l as [|p l IH]; intros [|q l'] E; cbn in E; try discriminate; [reflexivity|]. injection E as -> E. f_equal. auto. }
  apply inj in Ec, Ec'. injection Ec as <- <-. injection Ec' as <- <-.
  inversion Hwf as [|? ? [Hwl Hrl] Hwh]; subst. inversion Hwf' as [|? ? [Hwl' Hrl'] Hwh']; subst. cbn [map] in Hs. injection Hs as Hsl Hsh.
  inversion Hax as [|? ? Hal Hah]; subst. inversion Hax' as [|? ? Hal' Hah']; subst.
  assert (Ea : norm_axis 1 (-1) = 0) by reflexivity.
  assert (Hal0 : forall l : list (tensor K), Forall (fun t => wf t /\ rank t = 1) l -> map (ax_len (-1)) l = map (alen 0) l).
  { intros l HF. apply map_ext_in. intros h Hh. rewrite Forall_forall in HF. destruct (HF h Hh) as [_ Hrh]. unfold ax_len, alen. rewrite Hrh. reflexivity. }
  assert (Fsz : forall t : tensor K, rank t = 1 -> fsz [0] (shp t) = []) by (intros t Hrt; unfold fsz; unfold rank in Hrt; rewrite Hrt; reflexivity).
  assert (Fall : forall (t : tensor K) l, rank t = 1 -> Forall (fun u : tensor K => ttag u = ttag t) l -> Forall (fun u => wf u /\ rank u = 1) l ->
     Forall (fun u => wf u /\ rank u = 1 /\ fsz [0] (shp u) = fsz [0] (shp t) /\ ttag u = ttag t) l).
  { intros t l Hrt HT HF. rewrite Forall_forall in *. intros u Hu. destruct (HF u Hu) as [U1 U2]. rewrite !Fsz by assumption. repeat split; auto. }
  assert (Lf : forall (t : tensor K), rank t = 1 -> ax_len (-1) t = alen 0 t) by (intros t Hrt; unfold ax_len, alen; rewrite Hrt; reflexivity).
  rewrite (waverec_ok lo his w (List.length (rec_lo w)) (-1)%Z) in Hy; auto; [|rewrite Hrl, Ea; apply Fall; auto|rewrite Hrl, Ea, <- Lf, <- Hal0 by auto; exact Hfit].
  rewrite (waverec_ok lo' his' w (List.length (rec_lo w)) (-1)%Z) in Hy'; auto; [|rewrite Hrl', Ea; apply Fall; auto|rewrite Hrl', Ea, <- Lf, <- Hal0 by auto; exact Hfit'].
  apply ok_inj in Hy, Hy'. rewrite Hrl, Ea in Hy. rewrite Hrl', Ea in Hy'. set (L := List.length (rec_lo w)) in *.
  assert (Hfit1 : forall l k, lens_fit L k (map (alen 0) l) -> sizes_fit L [k] (map (lsizes [0]) (map (fun h : tensor K => [h]) l))).
  { clear. induction l as [|h l IH]; intros k H; [exact I|]. cbn [map lens_fit sizes_fit lsizes] in *. destruct H as (Hk & H1 & Hr). split; [cbn; unfold alen in Hk; rewrite Hk; reflexivity|]. split; [repeat constructor; exact H1|].
    destruct l as [|h2 l]; [exact I|]. cbn [map lsizes] in *. destruct Hr as [Hr Hr2]. split; [constructor; [exact Hr|constructor]|]. apply IH. exact Hr2. }
  assert (Cf : forall (t : tensor K) l, wf t -> rank t = 1 -> Forall (fun u : tensor K => ttag u = ttag t) l -> Forall (fun u => wf u /\ rank u = 1) l -> lens_fit L (alen 0 t) (map (alen 0) l) -> coeffs_fit 1 [0] L t (map (fun h => [h]) l)).
  { intros t l Hwt Hrt HT HF HLf. split; [|apply Hfit1; exact HLf]. apply Forall_forall. intros ds Hds. apply in_map_iff in Hds as (h & <- & Hh). rewrite Forall_forall in HF, HT. destruct (HF h Hh) as [U1 U2].
    split; [|repeat constructor; apply HT; exact Hh]. split; [reflexivity|]. split; [repeat constructor; [exact U1|congruence|rewrite !Fsz by assumption; reflexivity]|].
    intros d d' [<-|[]] [<-|[]]. reflexivity. }
  rewrite waverec_as_recN in Hy, Hy'. subst y y'.
  assert (HJ : List.length his' = J) by (apply (f_equal (@List.length _)) in Hsh; rewrite !map_length in Hsh; exact Hsh).
  assert (Hg : good_axes (rank lo) [0]) by (rewrite Hrl; apply good_axes1; lia).
  set (y := recN_spec L [[rec_lo w]; [rec_hi w]] [0] lo (map (fun h => [h]) his)) in *.
  assert (G : agree_at L 0 [0] [0] [n] y (recN_spec L [[rec_lo w]; [rec_hi w]] [0] lo' (map (fun h => [h]) his'))).
  { apply (recN_local 1); auto.
    - split; [unfold rank in Hrl; rewrite Hrl; reflexivity|]. intros d Hd0 Hn0. exfalso. apply Hn0. unfold rank in Hrl. rewrite Hrl in Hd0. left. lia.
    - apply Cf; auto. rewrite <- Lf, <- Hal0 by auto. exact Hfit.
    - apply Cf; auto. rewrite <- Lf, <- Hal0 by auto. exact Hfit'.
    - unfold same_shapes. clear - Hsh. revert his' Hsh. induction his as [|h his IH]; intros [|h' his'] E; try discriminate; cbn [map] in *; [constructor|]. injection E as E1 E2.
      constructor; [repeat constructor; exact E1|apply IH; exact E2].
    - rewrite map_length. intros ks Hv Hwn. inversion Hwn as [|k ? ks' ? Hk Hk']; subst. inversion Hk'; subst. cbn [upds updn]. inversion Hv; subst. apply Hlo; tauto.
    - clear - Hhi HJ Hsh. subst J. revert his' HJ Hhi Hsh. induction his as [|h his IH]; intros [|h' his'] HJ Hhi Hsh; try discriminate; [exact I|]. cbn [map levels_agree List.length] in *. injection Hsh as Hsh1 Hsh2. split.
      + rewrite map_length. constructor; [|constructor]. intros ks Hv Hwn. inversion Hwn as [|k ? ks' ? Hk Hk']; subst. inversion Hk'; subst. cbn [upds updn]. inversion Hv; subst.
        specialize (Hhi (S (List.length his)) k). rewrite Nat.sub_diag in Hhi. cbn [nth] in Hhi. apply Hhi; try tauto. lia.
      + apply IH; auto. intros j k Hj. specialize (Hhi j k ltac:(lia)). replace (S (List.length his) - j) with (S (List.length his - j)) in Hhi by lia. cbn [nth] in Hhi. exact Hhi. }
  apply (agree_0 L [0] [0] [n] y _ G). cbn. repeat constructor. exact Hn.
Qed.
End LR.

(** ** examples over the integers *)
(** two-level coefficients of 16 samples (filters of length 4); c' changes details 6 and 7 of level 1 and approximation coefficient 3: samples 0..5 stay, others do not *)
Definition exC : list (tensor ZK) := tensors (wavedec exS exW4 (Some (mode_name Mzero)) (Some 2%Z) (-1)).
Definition bump (ks : list nat) (t : tensor ZK) : tensor ZK := tmake (ttag t) (shp t) (fun i : list nat => kadd (c := ZK) (get t i) (if existsb (Nat.eqb (hd 0 i)) ks then 100%Z else 0%Z)).
Definition exC' : list (tensor ZK) := match exC with [a; d2; d1] => [bump [3] a; d2; bump [6; 7] d1] | _ => [] end.
Definition rec_of (l : list (tensor ZK)) : tensor ZK := match waverec (map PT l) exW4 (AxInt (-1)) with Ok y => y | _ => exS end.
Definition wf1b (t : tensor ZK) : bool := Nat.eqb (List.length (dat t)) (prodl (shp t)) && Nat.eqb (rank t) 1.
Theorem ex_C79_1d : let y := rec_of exC in let y' := rec_of exC' in
  waverec (map PT exC) exW4 (AxInt (-1)) = Ok y /\ waverec (map PT exC') exW4 (AxInt (-1)) = Ok y' /\ List.length exC = 3 /\
  forallb wf1b exC = true /\ forallb wf1b exC' = true /\ map (@shp ZK) exC' = map (@shp ZK) exC /\
  (forall n, n < 6 -> forall j k, 1 <= j <= 2 -> k < nth 0 (shp (nth (3 - j) exC exS)) 0 -> 2 ^ j * k <= n + (2 ^ j - 1) * (4 - 2) -> n < 2 ^ j * (k + 1) ->
     get (nth (3 - j) exC exS) [k] = get (nth (3 - j) exC' exS) [k]) /\
  map (fun n => Z.eqb (get y [n]) (get y' [n])) (seq 0 16) = [true; true; true; true; true; true; true; true; true; true; true; false; true; false; false; false].
Proof.
  cbv zeta. split; [vm_compute; reflexivity|]. split; [vm_compute; reflexivity|]. repeat (split; [vm_compute; reflexivity|]). split; [|vm_compute; reflexivity].
  assert (B : forallb (fun n => forallb (fun j => forallb (fun k => implb (Nat.leb (2 ^ j * k) (n + (2 ^ j - 1) * 2) && Nat.ltb n (2 ^ j * (k + 1)))
     (Z.eqb (get (nth (3 - j) exC exS) [k]) (get (nth (3 - j) exC' exS) [k]))) (seq 0 (nth 0 (shp (nth (3 - j) exC exS)) 0))) [1; 2]) (seq 0 6) = true) by (vm_compute; reflexivity).
  intros n Hn j k Hj Hk A1 A2. rewrite forallb_forall in B. specialize (B n). rewrite forallb_forall in B.
  assert (Hin : In n (seq 0 6)) by (apply in_seq; lia). specialize (B Hin j ltac:(cbn; lia)). rewrite forallb_forall in B. specialize (B k ltac:(apply in_seq; lia)).
  destruct (Nat.leb_spec (2 ^ j * k) (n + (2 ^ j - 1) * 2)); [|lia]. destruct (Nat.ltb_spec n (2 ^ j * (k + 1))); [|lia]. apply Z.eqb_eq. exact B.
Qed.
(** one 2d level, 3 x 4 coefficients, filters of length 2: changing approximation coefficient (2, 3) leaves the sample (1, 2) alone *)
Definition exA : tensor ZK := exT [3; 4].
Definition exA' : tensor ZK := tmake (K := ZK) (ttag exA) (shp exA) (fun i : list nat => if list_eq_dec Nat.eq_dec i [2; 3] then 77%Z else get exA i).
Definition exDs : list (list (tensor ZK)) := [[exT [3; 4]; exT [3; 4]; exT [3; 4]]].
Definition rec2_of (a : tensor ZK) : tensor ZK := match synthesise (Swaverec2 (AxSeq [(-2)%Z; (-1)%Z])) (container (Swaverec2 (AxSeq [(-2)%Z; (-1)%Z])) a exDs) exW2 with Ok y => y | _ => a end.
Lemma exA_fit (a : tensor ZK) : shp a = [3; 4] -> ttag a = f32 -> coeffs_fit 3 [0; 1] 2 a exDs.
Proof.
  intros Hs Ht. unfold coeffs_fit, exDs. rewrite Hs, Ht. unfold rank. rewrite Hs. split.
  - constructor; [|constructor]. split; [|repeat constructor; vm_compute; reflexivity]. split; [reflexivity|]. split; [repeat constructor; vm_compute; reflexivity|].
    intros d d' [<-|[<-|[<-|[]]]] [<-|[<-|[<-|[]]]]; reflexivity.
  - cbn. split; [reflexivity|]. split; [repeat constructor; lia|exact I].
Qed.
Theorem ex_C79_2d : let S := Swaverec2 (AxSeq [(-2)%Z; (-1)%Z]) in
  coeffs_fit (K := ZK) 3 [0; 1] 2 exA exDs /\ coeffs_fit (K := ZK) 3 [0; 1] 2 exA' exDs /\
  synthesise S (container S exA exDs) exW2 = Ok (rec2_of exA) /\ synthesise S (container S exA' exDs) exW2 = Ok (rec2_of exA') /\
  agree_at 2 1 [0; 1] [0; 0] [1; 2] exA exA' /\ levels_agree 2 [0; 1] [0; 0] [1; 2] exDs exDs /\
  get (rec2_of exA) [1; 2] = get (rec2_of exA') [1; 2] /\ get (rec2_of exA) [4; 6] <> get (rec2_of exA') [4; 6].
Proof.
  cbv zeta. split; [apply exA_fit; reflexivity|]. split; [apply exA_fit; reflexivity|]. split; [vm_compute; reflexivity|]. split; [vm_compute; reflexivity|].
  split; [|split; [|split; vm_compute; congruence]].
  - intros ks Hv Hw. inversion Hw as [|k ? p ? H1 Hw1]; subst. inversion Hw1 as [|k2 ? p2 ? H2 Hw2]; subst. inversion Hw2; subst. cbn in H1, H2. assert (k = 0) as -> by lia. assert (k2 = 1) as -> by lia. vm_compute. reflexivity.
  - cbn [exDs levels_agree]. split; [|exact I]. repeat (apply Forall2_cons; [intros ? ? ?; reflexivity|]). apply Forall2_nil.
Qed.
