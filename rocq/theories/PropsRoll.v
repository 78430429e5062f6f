(** C84: periodic padding at one level is circular: the coefficients are periodic, a circular shift of the signal by
    an even amount shifts them circularly, and they are the stationary coefficients at every other sample. *)
From Coq Require Import List Arith ZArith Lia Bool Ascii String Ring.
From Coq Require Import ZifyNat ZifyBool.
From Verif Require Import Base Sums Tensor TensorFacts Util Perm Plumb Accept Spec Conv1 PadFacts CoreFacts Analysis AnalysisInv PRKernel Synthesis Filters Wave1 Wave1Inv Rec1 Rec1Inv Lin Examples Props1 Conv2 Conv3 Spec2 WaveN RecN Props2 Sep SpecSep SepFacts SepRec SepRec2 SepRec3 PropsSep Unified RecNInv UnifiedRec PropsConst PropsLocal SpecMat PropsMat1 Boundary EnergyN PropsLocalRec Polyphase PropsAdjoint PropsFlip Swt SpecSwt SwtFacts SwtDec SwtRec PropsSwt.
Import ListNotations.

Section Roll.
Context {K : CRing}.
Add Ring Kring : (cr_th K).
Implicit Types (x : tensor K) (w : wavelet K).

(** [torch.roll] by ss along the axes: entry i moves to (i + s) mod n *)
Definition rolls (s : list nat) (ss : list Z) (is : list nat) : list nat :=
  map2 cyc s (map2 (fun i d => (Z.of_nat i - d)%Z) is ss).
Definition troll (nax : list nat) (ss : list Z) x : tensor K :=
  tmake (ttag x) (shp x) (fun idx => get x (upds nax (rolls (gather nax 0 (shp x)) ss (gather nax 0 idx)) idx)).
(** the coefficients of the shifted signal are those of the signal, shifted (on a circle of half the length) *)
Definition rolled (nax : list nat) (ns : list nat) (ss : list Z) (t t' : tensor K) : Prop :=
  shp t' = shp t /\ ttag t' = ttag t /\
  forall idx, valid idx (shp t) -> get t' idx = get t (upds nax (rolls (map (fun n => n / 2) ns) ss (gather nax 0 idx)) idx).

Lemma cyc_lt n z : 0 < n -> cyc n z < n.
Proof. intros H. unfold cyc. pose proof (Z.mod_pos_bound z (Z.of_nat n) ltac:(lia)). lia. Qed.
Lemma ext_periodic : forall s zs, List.length zs = List.length s -> ext_idxs Mperiodic s zs = Some (map2 cyc s zs).
Proof.
  induction s as [|n s IH]; intros [|z zs] H; try discriminate; [reflexivity|]. cbn [ext_idxs ext_idx map2]. cbv zeta. rewrite IH by (cbn in H; lia). reflexivity.
Qed.
Lemma rolls_valid s ss : Forall (fun n => 0 < n) s -> List.length ss = List.length s -> forall is, List.length is = List.length s -> valid (rolls s ss is) s.
Proof.
  intros H. revert ss. induction H as [|n s Hn H IH]; intros [|d ss] H1 [|i is] H2; try discriminate; [constructor|]. cbn [rolls map2]. constructor; [apply cyc_lt; exact Hn|]. apply IH; cbn in *; lia.
Qed.
Lemma rolls_length s ss is : List.length (rolls s ss is) = Nat.min (List.length s) (Nat.min (List.length is) (List.length ss)).
Proof. unfold rolls. rewrite !map2_length. reflexivity. Qed.

Lemma cyc_halve n k s j : 0 < n -> Nat.even n = true ->
  cyc n (Z.of_nat (cyc n (2 * Z.of_nat k + 1 - Z.of_nat j)) - 2 * s) = cyc n (2 * Z.of_nat (cyc (n / 2) (Z.of_nat k - s)) + 1 - Z.of_nat j).
Proof.
  intros Hn He. apply Nat.even_spec in He as [q ->]. replace (2 * q / 2) with q by (rewrite Nat.mul_comm, Nat.div_mul; lia).
  unfold cyc. f_equal. rewrite !Z2Nat.id by (apply Z.mod_pos_bound; lia). rewrite Nat2Z.inj_mul. change (Z.of_nat 2) with 2%Z. set (Q := Z.of_nat q) in *.
  rewrite Zminus_mod_idemp_l.
  apply (mod_eq _ _ _ ((Z.of_nat k - s) / Q)); [lia|]. pose proof (Z.div_mod (Z.of_nat k - s) Q ltac:(lia)). nia.
Qed.
Lemma rolls_halve : forall s ss ks js, Forall (fun n => 0 < n) s -> Forall (fun n => Nat.even n = true) s ->
  List.length ss = List.length s -> List.length ks = List.length s -> List.length js = List.length s ->
  rolls s (map (Z.mul 2) ss) (map2 cyc s (map2 (fun k j => (2 * Z.of_nat k + 1 - Z.of_nat j)%Z) ks js))
  = map2 cyc s (map2 (fun k j => (2 * Z.of_nat k + 1 - Z.of_nat j)%Z) (rolls (map (fun n => n / 2) s) ss ks) js).
Proof.
  induction s as [|n s IH]; intros [|d ss] [|k ks] [|j js] Hp He H1 H2 H3; try discriminate; [reflexivity|]. cbn [map map2 rolls]. f_equal.
  - apply cyc_halve; [exact (Forall_inv Hp)|exact (Forall_inv He)].
  - apply IH; try (cbn in *; lia); [exact (Forall_inv_tail Hp)|exact (Forall_inv_tail He)].
Qed.
Local Open Scope K_scope.
Lemma dwt_op_roll (fs : list (list K)) s (X : list nat -> K) ss ks : List.length fs = List.length s -> List.length ss = List.length s -> List.length ks = List.length s ->
  Forall (fun n => (0 < n)%nat) s -> Forall (fun n => Nat.even n = true) s ->
  dwt_op fs Mperiodic s (fun is => X (rolls s (map (Z.mul 2) ss) is)) ks = dwt_op fs Mperiodic s X (rolls (map (fun n => (n / 2)%nat) s) ss ks).
Proof.
  intros Hl Hss Hk Hp He. unfold dwt_op. apply sumI_ext. intros js Hjs. f_equal. apply valid_length in Hjs. rewrite map_length in Hjs.
  assert (Hr : List.length (rolls (map (fun n => (n / 2)%nat) s) ss ks) = List.length s) by (rewrite rolls_length, map_length; lia).
  unfold ext_get. rewrite (ext_periodic s (map2 _ ks js)) by (rewrite map2_length; lia). rewrite (ext_periodic s (map2 _ (rolls _ _ _) js)) by (rewrite map2_length; lia). f_equal. apply rolls_halve; auto. lia.
Qed.
Lemma half_le L n : (2 <= L)%nat -> (n / 2 <= dwt_len L n)%nat.
Proof. intros H. unfold dwt_len. apply Nat.div_le_mono; lia. Qed.
Lemma half_valid L s ss ks : (2 <= L)%nat -> Forall (fun n => (0 < n)%nat) s -> Forall (fun n => Nat.even n = true) s -> List.length ss = List.length s -> List.length ks = List.length s ->
  valid (rolls (map (fun n => (n / 2)%nat) s) ss ks) (map (dwt_len L) s).
Proof.
  intros HL Hp. revert ss ks. induction Hp as [|n s Hn Hp IH]; intros [|d ss] [|k ks] He H1 H2; try discriminate; [constructor|]. cbn [map rolls map2]. constructor.
  - pose proof (Forall_inv He) as E. apply Nat.even_spec in E as [q ->]. apply (Nat.lt_le_trans _ (2 * q / 2)); [|apply half_le; exact HL]. apply cyc_lt. rewrite Nat.mul_comm, Nat.div_mul; lia.
  - apply IH; cbn in *; try lia. exact (Forall_inv_tail He).
Qed.
Lemma get_troll_at nax x ss idx is : good_axes (rank x) nax -> fib_ok nax idx (shp x) -> List.length ss = List.length nax -> valid is (gather nax 0%nat (shp x)) ->
  get (troll nax ss x) (upds nax is idx) = get x (upds nax (rolls (gather nax 0%nat (shp x)) ss is) idx).
Proof.
  intros [Hnd Hin] Hi Hss Hv. assert (Li : List.length is = List.length nax) by (rewrite (valid_length _ _ Hv); apply gather_length).
  assert (Hlt : forall d, In d nax -> (d < List.length idx)%nat) by (intros d Hd; destruct Hi as [-> _]; apply Hin; exact Hd).
  unfold troll. rewrite get_make by (apply fib_valid; auto). rewrite gather_upds by auto. rewrite upds_upds; [reflexivity|exact Hnd|].
  rewrite rolls_length, gather_length. lia.
Qed.
Lemma dwt_roll L (fs : list (list K)) nax ss x : good_axes (rank x) nax -> List.length fs = List.length nax -> Forall (fun f => List.length f = L) fs ->
  (2 <= L)%nat -> List.length ss = List.length nax -> Forall (fun n => (0 < n)%nat) (gather nax 0%nat (shp x)) -> Forall (fun n => Nat.even n = true) (gather nax 0%nat (shp x)) ->
  rolled nax (gather nax 0%nat (shp x)) ss (dwt_axes fs Mperiodic nax x) (dwt_axes fs Mperiodic nax (troll nax (map (Z.mul 2) ss) x)).
Proof.
  intros Hg Hl HF HL Hss Hp He. pose proof Hg as [Hnd Hin]. split; [rewrite !(shp_dwt L) by auto; reflexivity|]. split; [reflexivity|].
  intros idx Hv. rewrite (shp_dwt L) in Hv by auto. set (s := gather nax 0%nat (shp x)) in *.
  assert (Lsn : List.length s = List.length nax) by apply gather_length.
  assert (Ls : List.length (map (dwt_len L) s) = List.length nax) by (rewrite map_length; exact Lsn).
  pose proof (fib_valid_out nax (map (dwt_len L) s) (shp x) idx Hg Ls Hv) as Hi.
  assert (Hks : valid (gather nax 0%nat idx) (map (dwt_len L) s)).
  { rewrite <- (gather_upds nax (map (dwt_len L) s) (shp x) 0%nat Hnd Ls) by (intros d Hd; apply Hin; exact Hd). apply valid_gather_sub; [|exact Hv]. intros d Hd. rewrite upds_length. apply Hin. exact Hd. }
  set (ks := gather nax 0%nat idx) in *. assert (Lk : List.length ks = List.length s) by (rewrite (valid_length _ _ Hks); apply map_length).
  replace (get (dwt_axes fs Mperiodic nax (troll nax (map (Z.mul 2) ss) x)) idx) with (get (dwt_axes fs Mperiodic nax (troll nax (map (Z.mul 2) ss) x)) (upds nax ks idx)) by (unfold ks; rewrite upds_gather; reflexivity).
  rewrite (get_dwt_at L) by auto. change (gather nax 0%nat (shp (troll nax (map (Z.mul 2) ss) x))) with s.
  rewrite (get_dwt_at L fs Mperiodic nax x idx (rolls (map (fun n => (n / 2)%nat) s) ss ks)) by (auto; fold s; apply half_valid; auto; lia). fold s.
  rewrite <- dwt_op_roll by (auto; lia).
  apply dwt_op_ext; [lia| |exact Lk|].
  - eapply Forall_impl; [|exact Hp]. intros n Hn. exact Hn.
  - intros is His. apply get_troll_at; auto. rewrite map_length. exact Hss.
Qed.

(** ** the code: one level, every container *)
Lemma keys_rolled (lo hi : list K) L nax ss x keys n : good_axes (rank x) nax -> List.length lo = L -> List.length hi = L ->
  (2 <= L)%nat -> List.length ss = List.length nax -> Forall (fun n => (0 < n)%nat) (gather nax 0%nat (shp x)) -> Forall (fun n => Nat.even n = true) (gather nax 0%nat (shp x)) ->
  List.length nax = n -> Forall (fun k => List.length (list_ascii_of_string k) = n) keys ->
  Forall2 (fun e e' => fst e = fst e' /\ rolled nax (gather nax 0%nat (shp x)) ss (snd e) (snd e'))
    (map (fun k => (k, detail lo (key_filters lo hi k) Mperiodic nax 1 x)) keys)
    (map (fun k => (k, detail lo (key_filters lo hi k) Mperiodic nax 1 (troll nax (map (Z.mul 2) ss) x))) keys).
Proof.
  intros Hg H1 H2 HL Hss Hp He Hn. induction 1 as [|k keys Hk H IH]; cbn [map]; constructor; [|exact IH]. cbn [fst snd]. split; [reflexivity|].
  apply (dwt_roll L); auto; [unfold key_filters; rewrite map_length; congruence|apply PropsFlip.key_filters_len; assumption].
Qed.
Theorem C84_shift T x w L ss c : wf x ->
  List.length (dec_lo w) = L -> List.length (dec_hi w) = L -> (2 <= L)%nat -> Nat.even L = true ->
  analyse T x w (Some "periodic"%string) (Some 1%Z) = Ok c -> List.length ss = tdim T ->
  (forall axes, hint_axes (thint T) (tdim T) = Some axes -> Forall (fun n => Nat.even n = true) (gather (map (norm_axis (rank x)) axes) 0%nat (shp x))) ->
  exists axes c', hint_axes (thint T) (tdim T) = Some axes /\
    let nax := map (norm_axis (rank x)) axes in
    analyse T (troll nax (map (Z.mul 2) ss) x) w (Some "periodic"%string) (Some 1%Z) = Ok c' /\
    pc_is_list c' = pc_is_list c /\ Forall2 (pv_rel (rolled nax (gather nax 0%nat (shp x)) ss)) (pc_items c) (pc_items c').
Proof.
  intros Hw H1 H2 HL He H Hss Hev.
  destruct (analyse_inv T x w Mperiodic L (Some 1%Z) c Hw H1 H2 HL He ltac:(right; exists 1%Z; split; [reflexivity|lia]) ltac:(discriminate) H) as (Hd & axes & Hh & Hl & Hax & HJ). cbv zeta in HJ. destruct HJ as (H3' & Hfs' & Hlev & Hc).
  specialize (Hev axes Hh). set (nax := map (norm_axis (rank x)) axes) in *. change (num_levels (Some 1%Z) L (gather nax 0%nat (shp x))) with 1%nat in *.
  assert (Hg : good_axes (rank x) nax) by (apply good_axes_ok; exact Hax).
  assert (Hn : List.length nax = tdim T) by (unfold nax; rewrite map_length; exact Hl).
  assert (Hp : Forall (fun n => (0 < n)%nat) (gather nax 0%nat (shp x))) by (eapply Forall_impl; [|exact Hlev]; intros n Hn'; apply (Hn' 0%nat); lia).
  exists axes, (tspec T (dec_lo w) (dec_hi w) Mperiodic nax 1 (troll nax (map (Z.mul 2) ss) x)). split; [exact Hh|]. split; [|split].
  - pose proof (analyse_ok T (troll nax (map (Z.mul 2) ss) x) w Mperiodic L (Some 1%Z) axes) as G. cbv zeta in G. change (rank (troll nax (map (Z.mul 2) ss) x)) with (rank x) in G. change (shp (troll nax (map (Z.mul 2) ss) x)) with (shp x) in G. fold nax in G.
    apply G; auto. apply wf_make.
  - rewrite Hc. reflexivity.
  - assert (Hsn : List.length ss = List.length nax) by congruence. assert (Hdw : forall fs, List.length fs = List.length nax -> Forall (fun f => List.length f = L) fs -> rolled nax (gather nax 0%nat (shp x)) ss (dwt_axes fs Mperiodic nax x) (dwt_axes fs Mperiodic nax (troll nax (map (Z.mul 2) ss) x))).
    { intros fs A B. apply (dwt_roll L); auto. }
    rewrite Hc. unfold tspec. cbn [pc_items seq rev app map]. constructor; [|constructor; [|constructor]].
    + constructor. apply Hdw; [apply repeat_length|]. apply Forall_forall. intros f Hf. rewrite (repeat_spec _ _ _ Hf). exact H1.
    + destruct T; cbn [tdetails tdim] in *.
      * constructor. apply Hdw; [cbn; congruence|repeat constructor; exact H2].
      * unfold details2. constructor. repeat constructor; apply Hdw; first [cbn; congruence|repeat constructor; assumption].
      * unfold details3. constructor. apply (keys_rolled _ _ L _ _ _ _ 3); first [assumption|congruence|repeat constructor].
      * unfold detailsN. rewrite Hn. constructor. apply (keys_rolled _ _ L _ _ _ _ 2); first [assumption|congruence|repeat constructor].
      * unfold detailsN. rewrite Hn. constructor. apply (keys_rolled _ _ L _ _ _ _ 3); first [assumption|congruence|repeat constructor].
Qed.

(** the stationary coefficients contain the periodic ones (any length, odd ones included) *)
Lemma dwt_swt (f : list K) L a x idx : List.length f = L -> (2 <= L)%nat -> Nat.even L = true -> (a < rank x)%nat -> (0 < nth a (shp x) 0)%nat -> wf x ->
  valid idx (shp (dwt_axes [f] Mperiodic [a] x)) ->
  get (dwt_axes [f] Mperiodic [a] x) idx = get (swt_level f 1 a x) (updn a (cyc (nth a (shp x) 0%nat) (2 * Z.of_nat (nth a idx 0%nat) + 1 - Z.of_nat (L / 2))) idx).
Proof.
  intros Hf HL He Ha Hn Hw Hv. assert (Hg : good_axes (rank x) [a]) by (apply good_axes1; exact Ha).
  rewrite (shp_dwt L) in Hv by (auto; repeat constructor; exact Hf). cbn [gather map upds] in Hv. set (n := nth a (shp x) 0%nat) in *.
  pose proof (valid_length _ _ Hv) as Hlen. rewrite updn_length in Hlen.
  set (o := cyc n (2 * Z.of_nat (nth a idx 0%nat) + 1 - Z.of_nat (L / 2))).
  assert (Hi : fib_ok [a] idx (shp x)) by (apply (fib_valid_out [a] [dwt_len L n] (shp x) idx Hg eq_refl); exact Hv).
  assert (Hk : (nth a idx 0 < dwt_len L n)%nat).
  { pose proof (valid_nth idx _ a Hv) as G. rewrite updn_length in G. specialize (G Ha). rewrite nth_updn_eq in G by exact Ha. exact G. }
  replace (get (dwt_axes [f] Mperiodic [a] x) idx) with (get (dwt_axes [f] Mperiodic [a] x) (upds [a] [nth a idx 0%nat] idx)) by (cbn [upds]; rewrite updn_same; reflexivity).
  rewrite (get_dwt_at L) by (first [exact Hg|reflexivity|exact Hi|constructor; [exact Hf|constructor]|cbn; constructor; [exact Hk|constructor]]). cbn [gather map]. fold n.
  assert (Hvo : valid (updn a o idx) (shp x)).
  { apply (fib_valid [a] idx (shp x) [o]); [apply Hg|intros d Hd; apply Hg in Hd; exact Hd|exact Hi|]. cbn. constructor; [|constructor]. apply cyc_lt. exact Hn. }
  unfold swt_level. rewrite get_circ_axis by auto. fold n. unfold dwt_op, circ_conv. cbn [map sumI]. apply sumf_ext. intros j Hj. cbn [taps map2 upds].
  unfold ext_get. rewrite (ext_periodic [n] [_]) by reflexivity. cbn [map2 upds]. rewrite updn_updn. rewrite nth_updn_eq by (rewrite Hlen; exact Ha). rewrite Hf. change (2 ^ (Z.of_nat 1 - 1))%Z with 1%Z.
  replace (cyc n (Z.of_nat o + 1 * (Z.of_nat (L / 2) - Z.of_nat j))) with (cyc n (2 * Z.of_nat (nth a idx 0%nat) + 1 - Z.of_nat j)); [ring|].
  unfold o, cyc. rewrite Z2Nat.id by (apply Z.mod_pos_bound; lia). rewrite Zplus_mod_idemp_l. f_equal. f_equal. lia.
Qed.
Theorem C84_swt x w L h axis : swt_input x h axis -> even_bank w L ->
  let a := norm_axis (rank x) axis in let n := nth a (shp x) 0%nat in
  forall c, wavedec x w (Some "periodic"%string) (Some 1%Z) axis = Ok c ->
  exists cA cD sA sD : tensor K, c = mkPC true [PT cA; PT cD] /\ swt x w (Some 1%Z) h = Ok (mkPC true [PT sA; PT sD]) /\
    forall idx, valid idx (shp cA) -> valid idx (shp cD) /\
      let o := Z.to_nat ((2 * Z.of_nat (nth a idx 0%nat) + 1 - Z.of_nat (L / 2)) mod Z.of_nat n) in
      get cA idx = get sA (updn a o idx) /\ get cD idx = get sD (updn a o idx).
Proof.
  intros Hi (H1 & H2 & HL & He) a n c Hc. pose proof Hi as (Hw & Hd & Hh & Hax & Hn). fold a in Hn.
  pose proof (norm_axis_lt _ _ Hax) as Ha. fold a in Ha.
  destruct (wavedec_inv x w Mperiodic L (Some 1%Z) axis c Hw H1 H2 HL He Hc) as (_ & _ & J & HJ & Hlev). cbn [lev_of] in HJ. subst J. fold a in Hlev.
  change "periodic"%string with (mode_name Mperiodic) in Hc.
  rewrite (wavedec_ok x w Mperiodic L 1 (Some 1%Z) axis) in Hc by (auto; reflexivity). apply ok_inj in Hc. fold a in Hc.
  exists (dwt_axes [dec_lo w] Mperiodic [a] x), (dwt_axes [dec_hi w] Mperiodic [a] x), (swt_level (dec_lo w) 1 a x), (swt_level (dec_hi w) 1 a x).
  split; [rewrite <- Hc; reflexivity|]. split.
  - rewrite (C23_swt_formula x w L (Some 1%Z) h axis Hi ltac:(unfold even_bank; auto)); [reflexivity|]. right. cbn. reflexivity.
  - intros idx Hv. assert (Hv' : valid idx (shp (dwt_axes [dec_hi w] Mperiodic [a] x))).
    { rewrite (shp_dwt L) in * by (auto; repeat constructor; assumption). exact Hv. }
    split; [exact Hv'|]. split; apply (dwt_swt _ L); auto.
Qed.
End Roll.
