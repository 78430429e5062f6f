(** C65: MatrixWavedec(MatrixWaverec(c)) = c. *)
From Coq Require Import List Arith ZArith Lia Bool String Ring.
From Coq Require Import ZifyNat ZifyBool.
From Verif Require Import Base Sums Tensor TensorFacts Util Perm Plumb Accept Spec Conv1 Conv2 PadFacts CoreFacts AnalysisInv Synthesis Filters Wave1 Wave1Inv Rec1 RecN Sep SepFacts Lin AxesPerm Sparse SparseFacts SpecMat SpecMatN SparseMM LinAlg PropsSparse PropsOrth GramSchmidt Mat1 MatN MatOrth Boundary Boundary2 MatPre Mat1Facts Mat1Call Tags PropsMat1 MatNFacts MatNLoop MatNSep MatNNon MatNCall PropsMatN PropsMatN2 PropsMatNon EnergyN Surj.
Import ListNotations.
Ltac Zify.zify_post_hook ::= Z.div_mod_to_equations.
Local Arguments Nat.div : simpl never.
Local Arguments Nat.modulo : simpl never.

Lemma pow_half n J : n / 2 ^ S J = n / 2 / 2 ^ J.
Proof. rewrite Nat.div_div by (try lia; apply Nat.pow_nonzero; lia). reflexivity. Qed.
Lemma half_divide n J : Nat.divide (2 ^ S J) n -> n mod 2 = 0 /\ Nat.divide (2 ^ J) (n / 2).
Proof. intros [q Hq]. cbn [Nat.pow] in Hq. split; [nia|]. exists q. nia. Qed.
Lemma min_sizes L J n j : L <= n / 2 ^ (J - 1) -> j < J -> L <= n / 2 ^ j.
Proof.
  intros H Hj. etransitivity; [exact H|]. apply Nat.div_le_compat_l. pose proof (Nat.pow_nonzero 2 j ltac:(lia)). split; [lia|]. apply Nat.pow_le_mono_r; lia.
Qed.
Lemma divide_fits L J : forall s, Forall (Nat.divide (2 ^ J)) s -> (forall j, j < J -> Forall (fun n => L <= n / 2 ^ j) s) -> fitsN L J s.
Proof.
  induction J as [|J IH]; intros s Hd HL; cbn [fitsN]; [exact I|]. split.
  - eapply Forall_impl; [|apply (HL 0); lia]. intros n Hn. cbn [Nat.pow] in Hn. rewrite Nat.div_1_r in Hn. exact Hn.
  - assert (E : map half_up s = map (fun n => n / 2) s).
    { apply map_ext_in. intros n Hn. rewrite Forall_forall in Hd. unfold half_up. rewrite even_up_id; [reflexivity|]. apply (half_divide n J), Hd, Hn. }
    rewrite E. apply IH; [rewrite Forall_map|intros j Hj; rewrite Forall_map].
    + eapply Forall_impl; [|exact Hd]. intros n Hn. apply half_divide, Hn.
    + eapply Forall_impl; [|apply (HL (S j)); lia]. intros n Hn. cbn beta in *. rewrite <- pow_half. exact Hn.
Qed.
Lemma fitsN1 L J : forall n, fitsN L J [n] -> fitsJ L J n.
Proof. induction J as [|J IH]; intros n H; cbn [fitsJ fitsN] in *; [exact I|]. destruct H as [H1 H2]. inversion H1; subst. split; [assumption|]. apply IH, H2. Qed.
Lemma level_even J s j : Forall (Nat.divide (2 ^ J)) s -> j < J -> Forall (fun n => n mod 2 = 0) (map (fun n => n / 2 ^ j) s).
Proof.
  intros Hd Hj. rewrite Forall_map. eapply Forall_impl; [|exact Hd]. intros n [q ->]. replace J with (S (J - S j) + j) by lia. rewrite Nat.pow_add_r, Nat.mul_assoc, Nat.div_mul by (apply Nat.pow_nonzero; lia).
  cbn [Nat.pow]. replace (q * (2 * 2 ^ (J - S j))) with (q * 2 ^ (J - S j) * 2) by lia. apply Nat.mod_mul. lia.
Qed.

Lemma flat_single {A} (l : list A) : List.concat (map (fun d => [d]) l) = l.
Proof. induction l as [|a l IH]; cbn; [reflexivity|]. f_equal. exact IH. Qed.

Section PSU.
Context {K : CRing}.
Add Ring Kring : (cr_th K).
Local Open Scope K_scope.
Implicit Types (t u x : tensor K) (w : wavelet K).

(** the transform along one axis as a band transform *)
Lemma bw_band1 (A : nat -> nat -> nat -> K) m a (d : bool) x : (a < rank x)%nat -> bwn_band (tprod A) m [a] [d] x = if d then bw_hi A m a x else bw_lo A m a x.
Proof.
  intros Ha. set (n := nth a (shp x) 0%nat).
  assert (Hs : shp (bwn_band (tprod A) m [a] [d] x) = updn a (even_up n / 2)%nat (shp x)) by reflexivity.
  assert (Hs2 : shp (if d then bw_hi A m a x else bw_lo A m a x) = updn a (even_up n / 2)%nat (shp x)) by (destruct d; [apply bw_hi_shp|apply bw_lo_shp]).
  apply t_ext; [apply wf_make|destruct d; apply wf_mat_axis|destruct d; reflexivity|congruence|]. intros idx Hv. rewrite Hs in Hv.
  assert (Hl : (a < List.length idx)%nat) by (rewrite (valid_length _ _ Hv), updn_length; exact Ha).
  unfold bwn_band, along_axes. rewrite get_make by exact Hv. unfold bwn_op. cbn [gather map sumI upds]. fold n.
  assert (G : forall M : nat -> nat -> K, get (mat_axis M (bw_size a x / 2) a (ext_even m [a] x)) idx = sumf (even_up n) (fun j => M (nth a idx 0%nat) j * ext_get m [n] (fun is => get x (upds [a] is idx)) [Z.of_nat j])).
  { intros M. rewrite get_mat_axis by (rewrite shp_ext_even; cbn [gather map upds]; rewrite updn_updn; exact Hv). rewrite shp_ext_even. cbn [gather map upds]. rewrite nth_updn_eq by exact Ha. fold n. apply sumf_ext. intros j Hj. f_equal.
    unfold ext_even, along_axes. cbn [gather map upds]. fold n. rewrite get_make.
    - cbn [map]. rewrite nth_updn_eq by exact Hl. unfold ext_get. cbn [ext_idxs]. destruct (ext_idx m n (Z.of_nat j)) as [i|]; [|reflexivity]. cbn [upds]. rewrite updn_updn. reflexivity.
    - rewrite <- (updn_updn a (even_up n) (even_up n / 2)). apply valid_updn; assumption. }
  assert (Hb : bw_size a x = even_up n) by reflexivity.
  destruct d; [unfold bw_hi|unfold bw_lo]; rewrite G; apply sumf_ext; intros j Hj; cbn [band_rows tprod map]; rewrite ?Hb; f_equal; ring.
Qed.
Lemma bw_approx1 (A : nat -> nat -> nat -> K) m a J x : (a < rank x)%nat -> bwn_approx (tprod A) m [a] J x = bw_approx A m a J x.
Proof.
  intros Ha. unfold bwn_approx, bw_approx. cbn [List.length repeat].
  assert (H : forall J, Nat.iter J (bwn_band (tprod A) m [a] [false]) x = Nat.iter J (bw_lo A m a) x /\ (a < rank (Nat.iter J (bw_lo A m a) x))%nat).
  { clear J. induction J as [|J [IH1 IH2]]; [auto|]. cbn [Nat.iter nat_rect]. fold (Nat.iter J (bw_lo A m a) x). fold (Nat.iter J (bwn_band (tprod A) m [a] [false]) x). rewrite IH1. split; [apply (bw_band1 A m a false _ IH2)|].
    unfold rank. rewrite bw_lo_shp, updn_length. exact IH2. }
  apply H.
Qed.

Lemma approx_rank (A : nat -> nat -> nat -> K) m a x j : List.length (shp (bw_approx A m a j x)) = List.length (shp x).
Proof. unfold bw_approx. induction j as [|j IH]; [reflexivity|]. cbn [Nat.iter nat_rect]. rewrite bw_lo_shp, updn_length. exact IH. Qed.
Variable LA : linalg K.
Hypothesis HD : domain K.
Hypothesis HR : formally_real K.
Variables (w : wavelet K) (L : nat) (method : string) (m : mode).
Hypothesis HLA : la_ok LA method.
Hypothesis B : orthogonal_bank L (dec_lo w) (dec_hi w) (rec_lo w) (rec_hi w).
Hypothesis HI : boundary_independent L (dec_lo w) (dec_hi w).
Let odd := Some (mode_name m).
Let HA g : mats_ok LA w method L g := bank_mats LA HD HR g w L method HLA B HI.

Lemma sep_orth g J s j : Forall (Nat.divide (2 ^ J)) s -> Forall (fun n => (L <= n / 2 ^ (J - 1))%nat) s -> (j < J)%nat ->
  orth_rows (map (fun n => n / 2 ^ j)%nat s) (tprod (Bm LA w method g) (map (fun n => n / 2 ^ j)%nat s)).
Proof using All.
  intros Hd HL Hj. apply orth_tprod_rows. pose proof (level_even J s j Hd Hj) as He. rewrite Forall_forall in He |- *. intros n Hn.
  destruct (Am_ok LA w method L g (HA g) n) as (_ & _ & _ & _ & _ & [Ho _]); [|apply He, Hn|exact Ho].
  apply in_map_iff in Hn as (q & <- & Hq). rewrite Forall_forall in HL. apply (min_sizes L J); [apply HL, Hq|exact Hj].
Qed.
Lemma fits_of J s : Forall (Nat.divide (2 ^ J)) s -> Forall (fun n => (L <= n / 2 ^ (J - 1))%nat) s -> fitsN L J s.
Proof using.
  intros Hd HL. apply divide_fits; [exact Hd|]. intros j Hj. eapply Forall_impl; [|exact HL]. intros n Hn. apply (min_sizes L J); assumption.
Qed.
Lemma level_Z J : (0 < J)%nat -> forall s, wn_lev w (Some (Z.of_nat J)) s = Ok (Z.of_nat J).
Proof using. intros H s. unfold wn_lev. destruct (Z.leb_spec (Z.of_nat J) 0); [lia|reflexivity]. Qed.

(** MatrixWavedec2 and MatrixWaverec2, separable=True: for every container with matching sizes *)
Theorem C65_onto_2d axes r g sh s a levels : new_mwaverecn 2 w (AxSeq axes) method true = Ok r ->
  axes_ok (List.length sh) axes -> is_dtype_supported (fst g) = true -> List.length s = 2%nat ->
  let nax := map (norm_axis (List.length sh)) axes in let J := List.length levels in
  (forall d, (d < List.length sh)%nat -> ~ In d nax -> (0 < nth d sh 0)%nat) ->
  (0 < J)%nat -> Forall (fun n => (L <= n / 2 ^ (J - 1))%nat) s -> coeff_sizes nax g sh s 3 a levels ->
  exists x, snd (mr2_call LA r (PT a :: map (fun l => PTup l) levels)) = Ok x /\ wf x /\ ttag x = g /\ shp x = upds nax s sh /\
    forall o, new_mwavedecn 2 w (Some (Z.of_nat J)) (AxSeq axes) method odd true = Ok o ->
    exists o', mw2_call LA o x = (o', Ok (mkPC false (PT a :: map (fun l => PTup l) levels))).
Proof using All.
  intros Hr Hax Hdt Hs nax J Hb HJ HL Hc. pose proof Hr as Hr0. apply new_mrn_inv in Hr0 as [Hl _].
  assert (Hn : List.length nax = 2%nat) by (unfold nax; rewrite map_length; exact Hl).
  destruct (coeffs_surj (tprod (Bm LA w method g)) m nax g sh s [bLH; bHL; bHH] a levels) as (x & X1 & X2 & X3 & X4 & X5).
  - apply good_axes_ok, Hax.
  - congruence.
  - unfold bLH, bHL, bHH. repeat constructor; cbn; intuition discriminate.
  - rewrite Hn. unfold bLH, bHL, bHH. repeat constructor; discriminate.
  - intros j Hj. apply (sep_orth g J); auto. apply Hc.
  - exact Hc.
  - assert (Hrx : rank x = List.length sh) by (unfold rank; rewrite X3; apply upds_length).
    assert (Hgx : gather nax 0%nat (shp x) = s) by (rewrite X3; destruct (good_axes_ok _ _ Hax); apply gather_upds; [assumption|congruence|assumption]).
    assert (Hbn : batch_nonempty nax x) by (intros d Hd Hnd; rewrite X3 in Hd |- *; rewrite upds_length in Hd; rewrite nth_upds_notin by exact Hnd; apply Hb; assumption).
    assert (EJ : bwn_levels J L s = J) by (apply levels_fits_n, fits_of; [apply Hc|exact HL]).
    assert (Hcall : exists o', mw2_call LA (mkMWN w (Some (Z.of_nat J)) axes method odd true None [] [] false []) x = (o', Ok (mkPC false (PT a :: map (fun l => PTup l) levels)))).
    { destruct (sep_call LA HD HR w L method m HLA B HI (Some (Z.of_nat J)) axes x (Z.of_nat J)) as [o' E]; auto.
      - unfold tdtype. rewrite X2. exact Hdt.
      - rewrite Hrx. exact Hax.
      - apply level_Z, HJ.
      - intros _. apply fsz_pos. rewrite Hrx. exact Hbn.
      - exists o'. unfold odd. rewrite E. rewrite Hrx. fold nax. rewrite Hgx, Nat2Z.id, EJ, X2. unfold bwn2_coeffs. unfold J. rewrite X4. rewrite <- X5 at 2. rewrite map_map. reflexivity. }
    exists x. split; [|split; [exact X1|split; [exact X2|split; [exact X3|]]]].
    + destruct Hcall as [o' Hcall]. destruct (proj2 (C43_accepts LA HD HR w L method m HLA B HI (Some (Z.of_nat J)) axes x X1 Hl)) as (o & o2 & c & Ho & Hc2).
      { split; [unfold tdtype; rewrite X2; exact Hdt|]. rewrite Hrx. split; [exact Hax|]. exists (Z.of_nat J). split; [split; [reflexivity|lia]|]. right. exact Hbn. }
      pose proof Ho as Ho'. apply new_mwn_inv in Ho' as [_ ->].
      pose proof (C43_reconstruction LA HD HR w L method m HLA B HI (Some (Z.of_nat J)) axes _ x o' _ r X1 Ho Hcall Hr) as E. cbv zeta in E. rewrite Hrx in E. fold nax in E. cbn [pc_items] in E. rewrite E by (intros _; exact Hbn).
      cbn [List.length]. rewrite map_length. fold J. replace (Nat.eqb (S J) 1) with false by (symmetry; apply Nat.eqb_neq; lia). f_equal. apply ext_even_id; [exact X1|rewrite Hrx; apply good_axes_ok, Hax|]. rewrite Hgx.
      pose proof (level_even J s 0 (proj1 Hc) HJ) as He. cbn [Nat.pow] in He. rewrite (map_ext (fun n => n / 1)%nat (fun n => n)) in He by (intros; apply Nat.div_1_r). rewrite map_id in He. exact He.
    + intros o Ho. apply new_mwn_inv in Ho as [_ ->]. exact Hcall.
Qed.
Lemma non_orth g J s j : List.length s = 2%nat -> Forall (Nat.divide (2 ^ J)) s -> Forall (fun n => (L <= n / 2 ^ (J - 1))%nat) s -> (j < J)%nat ->
  orth_rows (map (fun n => n / 2 ^ j)%nat s) (Mi (A2 LA w method g) (map (fun n => n / 2 ^ j)%nat s)).
Proof using All.
  intros Hs Hd HL Hj. pose proof (level_even J s j Hd Hj) as He. destruct s as [|h [|v [|? ?]]]; try discriminate. cbn [map] in He |- *.
  inversion He as [|? ? Eh He']; subst. inversion He' as [|? ? Ev _]; subst. inversion HL as [|? ? Lh HL']; subst. inversion HL' as [|? ? Lv _]; subst.
  unfold Mi. apply orth_image_rows; auto. apply (A2_ok LA HD HR w L method HLA B HI g); auto; apply (min_sizes L J); auto.
Qed.
(** MatrixWavedec2 and MatrixWaverec2, separable=False: for every container with matching sizes *)
Theorem C65_onto_2d_nonseparable axes r g sh s a levels : new_mwaverecn 2 w (AxSeq axes) method false = Ok r ->
  axes_ok (List.length sh) axes -> is_dtype_supported (fst g) = true -> List.length s = 2%nat ->
  let nax := map (norm_axis (List.length sh)) axes in let J := List.length levels in
  (forall d, (d < List.length sh)%nat -> ~ In d nax -> (0 < nth d sh 0)%nat) ->
  (0 < J)%nat -> Forall (fun n => (L <= n / 2 ^ (J - 1))%nat) s -> coeff_sizes nax g sh s 3 a levels ->
  exists x, snd (mr2_call LA r (PT a :: map (fun l => PTup l) levels)) = Ok x /\ wf x /\ ttag x = g /\ shp x = upds nax s sh /\
    forall o, new_mwavedecn 2 w (Some (Z.of_nat J)) (AxSeq axes) method odd false = Ok o ->
    exists o', mw2_call LA o x = (o', Ok (mkPC false (PT a :: map (fun l => PTup l) levels))).
Proof using All.
  intros Hr Hax Hdt Hs nax J Hb HJ HL Hc. pose proof Hr as Hr0. apply new_mrn_inv in Hr0 as [Hl _].
  assert (Hn : List.length nax = 2%nat) by (unfold nax; rewrite map_length; exact Hl).
  destruct (coeffs_surj (Mi (A2 LA w method g)) m nax g sh s ksN a levels) as (x & X1 & X2 & X3 & X4 & X5).
  - apply good_axes_ok, Hax.
  - congruence.
  - unfold ksN, bLH, bHL, bHH. repeat constructor; cbn; intuition discriminate.
  - rewrite Hn. unfold ksN, bLH, bHL, bHH. repeat constructor; discriminate.
  - intros j Hj. apply (non_orth g J); auto. apply Hc.
  - exact Hc.
  - assert (Hrx : rank x = List.length sh) by (unfold rank; rewrite X3; apply upds_length).
    assert (Hgx : gather nax 0%nat (shp x) = s) by (rewrite X3; destruct (good_axes_ok _ _ Hax); apply gather_upds; [assumption|congruence|assumption]).
    assert (Hbn : batch_nonempty nax x) by (intros d Hd Hnd; rewrite X3 in Hd |- *; rewrite upds_length in Hd; rewrite nth_upds_notin by exact Hnd; apply Hb; assumption).
    assert (EJ : bwn_levels J L s = J) by (apply levels_fits_n, fits_of; [apply Hc|exact HL]).
    assert (Hcall : exists o', mw2_call LA (mkMWN w (Some (Z.of_nat J)) axes method odd false None [] [] false []) x = (o', Ok (mkPC false (PT a :: map (fun l => PTup l) levels)))).
    { destruct (non_call LA HD HR w L method HLA B HI m (Some (Z.of_nat J)) axes x (Z.of_nat J)) as [o' E]; auto.
      - unfold tdtype. rewrite X2. exact Hdt.
      - rewrite Hrx. exact Hax.
      - apply level_Z, HJ.
      - rewrite Hrx. fold nax. rewrite Hgx, Nat2Z.id, EJ. split; [exact HJ|]. apply fsz_pos. exact Hbn.
      - exists o'. unfold odd. rewrite E. rewrite Hrx. fold nax. rewrite Hgx, Nat2Z.id, EJ, X2. unfold bwn2_coeffs. unfold J. rewrite X4. rewrite <- X5 at 2. rewrite map_map. reflexivity. }
    exists x. split; [|split; [exact X1|split; [exact X2|split; [exact X3|]]]].
    + destruct Hcall as [o' Hcall]. destruct (proj2 (C43_nonseparable_accepts LA HD HR w L method HLA B HI m (Some (Z.of_nat J)) axes x X1 Hl)) as (o & o2 & c & Ho & Hc2).
      { split; [unfold tdtype; rewrite X2; exact Hdt|]. rewrite Hrx. split; [exact Hax|]. exists (Z.of_nat J). split; [split; [reflexivity|lia]|]. fold nax. rewrite Hgx, Nat2Z.id, EJ. auto. }
      pose proof Ho as Ho'. apply new_mwn_inv in Ho' as [_ ->].
      pose proof (C43_nonseparable_reconstruction LA HD HR w L method HLA B HI m (Some (Z.of_nat J)) axes _ x o' _ r X1 Ho Hcall Hr) as E. cbv zeta in E. rewrite Hrx in E. fold nax in E. cbn [pc_items] in E. rewrite E. f_equal. apply ext_even_id; [exact X1|rewrite Hrx; apply good_axes_ok, Hax|]. rewrite Hgx.
      pose proof (level_even J s 0 (proj1 Hc) HJ) as He. cbn [Nat.pow] in He. rewrite (map_ext (fun n => n / 1)%nat (fun n => n)) in He by (intros; apply Nat.div_1_r). rewrite map_id in He. exact He.
    + intros o Ho. apply new_mwn_inv in Ho as [_ ->]. exact Hcall.
Qed.
(** MatrixWavedec3 and MatrixWaverec3: for every container with matching sizes *)
Theorem C65_onto_3d axes r g sh s a levels : new_mwaverecn 3 w (AxSeq axes) method true = Ok r ->
  axes_ok (List.length sh) axes -> is_dtype_supported (fst g) = true -> List.length s = 3%nat ->
  let nax := map (norm_axis (List.length sh)) axes in let J := List.length levels in
  (0 < J)%nat -> Forall (fun n => (L <= n / 2 ^ (J - 1))%nat) s -> coeff_sizes nax g sh s 7 a levels ->
  exists x, snd (fst (mr3_call LA r (PT a :: map (fun l => PDict (combine (map band_key bands3) l)) levels))) = Ok x /\ wf x /\ ttag x = g /\ shp x = upds nax s sh /\
    forall o, new_mwavedecn 3 w (Some (Z.of_nat J)) (AxSeq axes) method odd true = Ok o ->
    exists o', mw3_call LA o x = (o', Ok (mkPC false (PT a :: map (fun l => PDict (combine (map band_key bands3) l)) levels))).
Proof using All.
  intros Hr Hax Hdt Hs nax J HJ HL Hc. pose proof Hr as Hr0. apply new_mrn_inv in Hr0 as [Hl _].
  assert (Hn : List.length nax = 3%nat) by (unfold nax; rewrite map_length; exact Hl).
  destruct (coeffs_surj (tprod (Bm LA w method g)) m nax g sh s bands3 a levels) as (x & X1 & X2 & X3 & X4 & X5).
  - apply good_axes_ok, Hax.
  - congruence.
  - unfold bands3. repeat constructor; cbn; intuition discriminate.
  - rewrite Hn. unfold bands3. repeat constructor; discriminate.
  - intros j Hj. apply (sep_orth g J); auto. apply Hc.
  - exact Hc.
  - assert (Hrx : rank x = List.length sh) by (unfold rank; rewrite X3; apply upds_length).
    assert (Hgx : gather nax 0%nat (shp x) = s) by (rewrite X3; destruct (good_axes_ok _ _ Hax); apply gather_upds; [assumption|congruence|assumption]).
    assert (EJ : bwn_levels J L s = J) by (apply levels_fits_n, fits_of; [apply Hc|exact HL]).
    assert (Hcall : exists o', mw3_call LA (mkMWN w (Some (Z.of_nat J)) axes method odd true None [] [] false []) x = (o', Ok (mkPC false (PT a :: map (fun l => PDict (combine (map band_key bands3) l)) levels)))).
    { destruct (call3 LA HD HR w L method m HLA B HI (Some (Z.of_nat J)) axes x (Z.of_nat J)) as [o' E]; auto.
      - unfold tdtype. rewrite X2. exact Hdt.
      - rewrite Hrx. exact Hax.
      - apply level_Z, HJ.
      - exists o'. unfold odd. rewrite E. rewrite Hrx. fold nax. rewrite Hgx, Nat2Z.id, EJ, X2. unfold bwn3_coeffs. unfold J. rewrite X4. rewrite <- X5 at 2. rewrite map_map. reflexivity. }
    exists x. split; [|split; [exact X1|split; [exact X2|split; [exact X3|]]]].
    + destruct Hcall as [o' Hcall]. destruct (proj2 (C45_accepts LA HD HR w L method m HLA B HI (Some (Z.of_nat J)) axes x X1 Hl)) as (o & o2 & c & Ho & Hc2).
      { split; [unfold tdtype; rewrite X2; exact Hdt|]. rewrite Hrx. split; [exact Hax|]. lia. }
      pose proof Ho as Ho'. apply new_mwn_inv in Ho' as [_ ->].
      pose proof (C45_reconstruction LA HD HR w L method m HLA B HI (Some (Z.of_nat J)) axes _ x o' _ r X1 Ho Hcall Hr) as E. rewrite Hrx in E. fold nax in E. cbn [pc_items] in E. rewrite E by (cbn [List.length]; rewrite map_length; fold J; lia). f_equal. apply ext_even_id; [exact X1|rewrite Hrx; apply good_axes_ok, Hax|]. rewrite Hgx.
      pose proof (level_even J s 0 (proj1 Hc) HJ) as He. cbn [Nat.pow] in He. rewrite (map_ext (fun n => n / 1)%nat (fun n => n)) in He by (intros; apply Nat.div_1_r). rewrite map_id in He. exact He.
    + intros o Ho. apply new_mwn_inv in Ho as [_ ->]. exact Hcall.
Qed.
(** MatrixWavedec and MatrixWaverec *)
Theorem C65_onto_1d axis r g sh n a ds : new_mwaverec w (AxInt axis) method = Ok r ->
  (- Z.of_nat (List.length sh) <= axis < Z.of_nat (List.length sh))%Z -> is_dtype_supported (fst g) = true ->
  let ax := norm_axis (List.length sh) axis in let J := List.length ds in
  (0 < J)%nat -> (L <= n / 2 ^ (J - 1))%nat -> coeff_sizes [ax] g sh [n] 1 a (map (fun d => [d]) ds) ->
  exists x, snd (mr_call LA r (map PT (a :: ds))) = Ok x /\ wf x /\ ttag x = g /\ shp x = updn ax n sh /\
    forall o, new_mwavedec w (Some (Z.of_nat J)) (AxInt axis) method odd = Ok o ->
    exists o', mw_call LA o x = (o', Ok (mkPC true (map PT (a :: ds)))).
Proof using All.
  intros Hr Hax Hdt ax J HJ HL Hc. pose proof (norm_axis_lt _ _ Hax) as Ha. fold ax in Ha.
  assert (HLs : Forall (fun n => (L <= n / 2 ^ (J - 1))%nat) [n]) by (constructor; [exact HL|constructor]).
  assert (EJ' : List.length (map (fun d => [d]) ds) = J) by (apply map_length).
  assert (Hdv : Forall (Nat.divide (2 ^ J)) [n]) by (rewrite <- EJ'; apply Hc).
  destruct (coeffs_surj (tprod (Bm LA w method g)) m [ax] g sh [n] [[true]] a (map (fun d => [d]) ds)) as (x & X1 & X2 & X3 & X4 & X5).
  - apply good_axes1, Ha.
  - reflexivity.
  - repeat constructor. intros [].
  - repeat constructor. discriminate.
  - intros j Hj. rewrite EJ' in Hj. apply (sep_orth g J); auto.
  - exact Hc.
  - cbn [upds] in X3. assert (Hrx : rank x = List.length sh) by (unfold rank; rewrite X3; apply updn_length).
    assert (Hgx : nth ax (shp x) 0%nat = n) by (rewrite X3; apply nth_updn_eq, Ha).
    pose proof (level_even J [n] 0 Hdv HJ) as He. cbn [Nat.pow map] in He. rewrite Nat.div_1_r in He. apply Forall_inv in He.
    assert (Hev : ext_even m [ax] x = x) by (apply ext_even_id; [exact X1|apply good_axes1; rewrite Hrx; exact Ha|cbn [gather map]; rewrite Hgx; repeat constructor; exact He]).
    assert (EJ : bw_levels J L n = J) by (apply levels_fits, fitsN1, fits_of; assumption).
    assert (Hrk : (ax < rank x)%nat) by (rewrite Hrx; exact Ha).
    assert (Ecc : bw_coeffs (Bm LA w method g) m ax J x = a :: ds).
    { unfold bw_coeffs. rewrite <- (bw_approx1 _ m ax J x Hrk). rewrite EJ' in X4, X5. rewrite X4. f_equal.
      assert (E2 : map (fun d => [d]) (map (fun j => bw_hi (Bm LA w method g) m ax (bw_approx (Bm LA w method g) m ax j x)) (rev (seq 0 J))) = map (fun d => [d]) ds).
      { etransitivity; [|exact X5]. rewrite map_map. apply map_ext. intros j. cbn [map]. f_equal. rewrite bw_approx1 by exact Hrk. symmetry. apply (bw_band1 _ m ax true). unfold rank. rewrite approx_rank. exact Hrk. }
      apply (f_equal (@List.concat _)) in E2. rewrite !flat_single in E2. exact E2. }
    assert (Hcall : exists o', mw_call LA (mkMW w (Some (Z.of_nat J)) axis method odd None [] [] false []) x = (o', Ok (mkPC true (map PT (a :: ds))))).
    { destruct (mw_call_ok LA w method m L g (HA g) (ob_two _ _ _ _ _ B) (ob_len_lo _ _ _ _ _ B) (bank_rl w L B) (fun n => boundary_s_transpose LA g w n L method B) (mkMW w (Some (Z.of_nat J)) axis method odd None [] [] false []) x axis odd (Z.of_nat J)) as (o' & E & _); auto.
      - apply translate_mode.
      - unfold tdtype. rewrite X2. exact Hdt.
      - rewrite Hrx. exact Hax.
      - rewrite Hrx. fold ax. rewrite Hgx. left. exact He.
      - left. reflexivity.
      - cbn [mw_level]. unfold mw_lev. destruct (Z.leb_spec (Z.of_nat J) 0); [lia|reflexivity].
      - exists o'. rewrite E, Hrx. fold ax. rewrite Hgx, (even_up_id n He), Nat2Z.id, EJ, Hev, Ecc. reflexivity. }
    exists x. split; [|split; [exact X1|split; [exact X2|split; [exact X3|]]]].
    + destruct Hcall as [o' Hcall].
      destruct (proj2 (C40_accepts LA HD HR w L method m HLA B HI (Some (Z.of_nat J)) axis x X1)) as (o & o2 & c & Ho & Hc2).
      { split; [unfold tdtype; rewrite X2; exact Hdt|]. rewrite Hrx. split; [exact Hax|]. split; [|lia]. fold ax. rewrite Hgx. intros _ E. subst n. cbn in He. lia. }
      pose proof Ho as Ho'. apply new_mw_inv in Ho'. subst o.
      pose proof (C40_reconstruction LA HD HR w L method m HLA B HI (Some (Z.of_nat J)) axis _ x o' _ r X1 Ho Hcall Hr) as E. cbn [pc_items] in E. rewrite E, Hrx. fold ax. rewrite Hev. reflexivity.
    + intros o Ho. apply new_mw_inv in Ho. subst o. exact Hcall.
Qed.
End PSU.
