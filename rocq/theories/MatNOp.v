(** C53: the operators of MatrixWavedec2 / MatrixWaverec2 (separable=False). *)
From Coq Require Import List Arith ZArith Lia Bool String Ring.
From Coq Require Import ZifyNat ZifyBool.
From Verif Require Import Base Sums Tensor TensorFacts Util Perm Plumb Accept Spec Conv1 Conv2 PadFacts CoreFacts AnalysisInv Synthesis Filters Wave1 Wave1Inv Rec1 RecN Sep SepFacts Lin Sparse SparseFacts SparseConv SpecMat SpecMatN SparseMM LinAlg PropsOrth GramSchmidt Mat1 MatN MatOrth Boundary Boundary2 MatPre Mat1Facts Mat1Call Mat1Op Tags PropsMat1 MatNFacts MatNLoop MatNSep MatNNon MatNCall PropsMatN PropsMatN2 PropsMatNon.
Import ListNotations.
Ltac Zify.zify_post_hook ::= Z.div_mod_to_equations.
Local Arguments Nat.div : simpl never.
Local Arguments Nat.modulo : simpl never.

Section NO.
Context {K : CRing}.
Add Ring Kring : (cr_th K).
Open Scope K_scope.
Implicit Types (t u x : tensor K) (w : wavelet K).

Lemma pow_odd J n : (n mod 2 = 0)%nat -> Nat.divide (2 ^ J) (n / 2) -> Nat.divide (2 ^ S J) n.
Proof. intros He [q Hq]. exists q. cbn [Nat.pow]. nia. Qed.
Lemma anypad_false J : forall h v, anypad J [h; v] = false <-> Nat.divide (2 ^ J) h /\ Nat.divide (2 ^ J) v.
Proof.
  induction J as [|J IH]; intros h v.
  - split; [intros _; split; eexists; rewrite Nat.mul_1_r; reflexivity|reflexivity].
  - unfold anypad in *. cbn [bpadsN existsb map]. rewrite !orb_false_iff. rewrite IH. unfold isodd. rewrite !negb_false_iff, !Nat.eqb_eq. split.
    + intros [[H1 [H2 _]] [H3 H4]]. unfold half_up in H3, H4. rewrite (even_up_id h H1) in H3. rewrite (even_up_id v H2) in H4. split; apply pow_odd; assumption.
    + intros [H1 H2]. apply pow_even in H1 as [H1 H3]. apply pow_even in H2 as [H2 H4]. unfold half_up. rewrite (even_up_id h H1), (even_up_id v H2). repeat split; assumption.
Qed.

Lemma mget_xt2 (S E : smat K) h N : s_wf S -> s_rows S = h -> s_cols S = h ->
  (forall i j, (i < N)%nat -> (j < N)%nat -> mget E i j = if Nat.ltb i (s_rows S) || Nat.ltb j (s_rows S) then mget S i j else if Nat.eqb i j then 1 else 0) ->
  forall i j, (i < N)%nat -> (j < N)%nat -> mget E i j = xt (mget S) h i j.
Proof.
  intros Hw Hr Hc HE i j Hi Hj. rewrite HE by assumption. rewrite Hr. unfold xt, delta. destruct (Nat.ltb_spec i h), (Nat.ltb_spec j h); cbn [orb andb]; try reflexivity; apply mget_out; auto; lia.
Qed.
Section Op.
Variables (m : mode) (L : nat) (g : tag).
Variables A2 S2 : nat -> nat -> smat K.
Hypothesis HL : (2 <= L)%nat.
Hypothesis HA : forall h v, (L <= h)%nat -> (L <= v)%nat -> (h mod 2 = 0)%nat -> (v mod 2 = 0)%nat ->
  s_tag (A2 h v) = g /\ s_rows (A2 h v) = (v * h)%nat /\ s_cols (A2 h v) = (v * h)%nat /\ orthogonal (v * h) (mget (A2 h v)) /\
  s_tag (S2 h v) = g /\ s_rows (S2 h v) = (v * h)%nat /\ s_cols (S2 h v) = (v * h)%nat /\ (forall i j, mget (S2 h v) i j = mget (A2 h v) j i).
Hypothesis HW : forall h v, (L <= h)%nat -> (L <= v)%nat -> (h mod 2 = 0)%nat -> (v mod 2 = 0)%nat -> s_wf (A2 h v) /\ s_wf (S2 h v).
Notation bd := (bandc (Mi A2) m).
Definition fl (J : nat) t : list (tensor K) := Nat.iter J (bd bLL) t :: flat_map (fun j => map (fun k => bd k (Nat.iter j (bd bLL) t)) ksN) (rev (seq 0 J)).
Lemma fl_S J t : fl (S J) t = fl J (bd bLL t) ++ map (fun k => bd k t) ksN.
Proof.
  unfold fl. rewrite iter_r, !flat_map_concat_map, seq_S_map, concat_app. cbn [app List.concat]. rewrite app_nil_r. f_equal. f_equal. f_equal. apply map_ext. intros j. rewrite iter_r. reflexivity.
Qed.
Lemma prodv_even t b h v : wf t -> shp t = [b; h; v] -> (h mod 2 = 0)%nat -> (v mod 2 = 0)%nat -> prodv m A2 t = mat_axis (mget (A2 h v)) (v * h) 0 (cols t).
Proof.
  intros Hw Hs Eh Ev. pose proof (shp_cols t b h v Hs) as Sc. apply t_ext.
  - unfold prodv. rewrite Hs. apply wf_make.
  - apply wf_mat_axis.
  - unfold prodv. rewrite Hs, ttag_mat_axis, ttag_cols. reflexivity.
  - rewrite (shp_prodv m A2 t b h v Hs), shp_mat_axis, Sc, (even_up_id h Eh), (even_up_id v Ev). reflexivity.
  - intros idx Hv. rewrite (shp_prodv m A2 t b h v Hs), (even_up_id h Eh), (even_up_id v Ev) in Hv.
    rewrite get_mat_axis by (rewrite Sc; exact Hv). rewrite Sc. cbn [nth]. destruct idx as [|p [|q [|? ?]]]; try (apply valid_length in Hv; discriminate).
    unfold prodv. rewrite Hs. cbv zeta. rewrite (even_up_id h Eh), (even_up_id v Ev). rewrite get_make by exact Hv. unfold mat_vec. cbn [nth updn].
    rewrite (E_even m t b [h; v] Hw Hs) by (repeat constructor; assumption). reflexivity.
Qed.
Lemma cat_level t b h v : wf t -> shp t = [b; h; v] -> (L <= h)%nat -> (L <= v)%nat -> (h mod 2 = 0)%nat -> (v mod 2 = 0)%nat ->
  cat 0 (map cols (bd bLL t :: map (fun k => bd k t) ksN)) = Ok (mat_axis (mget (A2 h v)) (v * h) 0 (cols t)).
Proof.
  intros Hw Hs H1 H2 Eh Ev. pose proof (fun d1 d2 => part_ok m L g A2 S2 HL HA t b h v d1 d2 Hw Hs H1 H2) as HP. cbv zeta in HP. rewrite (even_up_id h Eh), (even_up_id v Ev) in HP.
  rewrite <- (prodv_even t b h v Hw Hs Eh Ev). set (q := (h / 2 * (v / 2))%nat) in *.
  assert (HV : (v * h = 4 * q)%nat). { unfold q. pose proof (Nat.div_mod h 2 ltac:(lia)). pose proof (Nat.div_mod v 2 ltac:(lia)). nia. }
  rewrite <- (cat_four (prodv m A2 t) 0 q).
  - cbn [map ksN seq]. pose proof (HP false false) as P0. pose proof (HP true false) as P1. pose proof (HP false true) as P2. pose proof (HP true true) as P3. cbn [bit Nat.add Nat.mul] in P0, P1, P2, P3.
    unfold bLL, bHL, bLH, bHH. rewrite <- P0, <- P1, <- P2, <- P3. reflexivity.
  - unfold prodv. rewrite Hs. apply wf_make.
  - unfold rank. rewrite (shp_prodv m A2 t b h v Hs). cbn. lia.
  - rewrite (shp_prodv m A2 t b h v Hs), (even_up_id h Eh), (even_up_id v Ev). cbn [nth]. exact HV.
Qed.
Lemma half_sh k t b h v : shp t = [b; h; v] -> (h mod 2 = 0)%nat -> (v mod 2 = 0)%nat -> shp (bd k t) = [b; h / 2; v / 2]%nat.
Proof. intros Hs Eh Ev. rewrite (shp_bandc (Mi A2) m k t b [h; v] Hs). cbn [map]. rewrite (even_up_id h Eh), (even_up_id v Ev). reflexivity. Qed.
Lemma rank_cols t b h v : shp t = [b; h; v] -> rank (cols t) = 2%nat.
Proof. intros Hs. unfold rank. rewrite (shp_cols t b h v Hs). reflexivity. Qed.

Lemma fold_fwt2_ok J : forall t b h v rest (M : smat K) N x, wf t -> shp t = [b; h; v] -> fitsN L J [h; v] -> Nat.divide (2 ^ J) h -> Nat.divide (2 ^ J) v ->
  (0 < rank x)%nat -> s_wf M -> s_tag M = g -> s_rows M = N -> s_cols M = nth 0 (shp x) 0%nat -> cat 0 (cols t :: rest) = Ok (mat_axis (mget M) N 0 x) ->
  exists W, fold_fwt M (List.concat (bmatsN (lmN A2) J [h; v])) = Ok W /\ s_wf W /\ s_tag W = g /\ s_rows W = N /\ s_cols W = nth 0 (shp x) 0%nat /\
    cat 0 (map cols (fl J t) ++ rest) = Ok (mat_axis (mget W) N 0 x).
Proof.
  induction J as [|J IH]; intros t b h v rest M N x Hw Hs Hf Hd1 Hd2 Hax M1 M2 M3 M4 Hcat.
  - exists M. cbn [bmatsN List.concat fold_fwt]. repeat (split; [first [reflexivity|assumption]|]). exact Hcat.
  - destruct Hf as [Hn Hf]. apply Forall2_inv in Hn as [H1 H2]. apply pow_even in Hd1 as [Eh Hd1]. apply pow_even in Hd2 as [Ev Hd2].
    cbn [bmatsN List.concat lmN map app fold_fwt] in Hf |- *. unfold half_up in Hf |- *. rewrite (even_up_id h Eh), (even_up_id v Ev) in Hf |- *.
    destruct (HA h v H1 H2 Eh Ev) as (A1 & R1 & C1 & _). destruct (HW h v H1 H2 Eh Ev) as [W1 _].
    assert (Rt : (0 < rank (cols t))%nat) by (rewrite (rank_cols t b h v Hs); lia). assert (Nt : nth 0 (shp (cols t)) 0%nat = (v * h)%nat) by (rewrite (shp_cols t b h v Hs); reflexivity).
    destruct (cat_xt (mget (A2 h v)) (v * h)%nat 0 (cols t) rest (wf_cols t Hw) Rt Nt _ Hcat) as (_ & _ & _ & C3 & _ & C5).
    rewrite shp_mat_axis, nth_updn_eq in C3, C5 by exact Hax.
    destruct (cat_identity_ok (A2 h v) N W1) as (e & E0 & E1 & E2 & E3 & E4 & E5); [congruence|lia|].
    rewrite M3, E0. cbn [rbind]. destruct (sp_mm_run e M) as [p Hp]; [congruence|congruence|]. rewrite Hp. cbn [rbind].
    destruct (sp_mm_ok _ _ _ Hp E4 M1) as (P1 & P2 & P3 & P4 & P5 & P6).
    pose proof (cat_level t b h v Hw Hs H1 H2 Eh Ev) as L3.
    destruct (IH (bd bLL t) b (h / 2)%nat (v / 2)%nat (map cols (map (fun k => bd k t) ksN) ++ rest) p N x) as (W & W0 & W2 & W3 & W4 & W5 & W6); auto; try congruence.
    + apply wf_core.
    + apply half_sh; assumption.
    + cbn [map cat] in L3, C5 |- *. rewrite cat_from_app, L3. cbn [rbind]. rewrite C5. f_equal. symmetry.
      rewrite (mat_axis_mul (mget M) (mget e) (mget p) N N 0 x Hax).
      * apply mat_axis_ext; [rewrite rank_mat_axis; exact Hax|]. intros i j Hi Hj. rewrite shp_mat_axis, nth_updn_eq in Hj by exact Hax.
        apply (mget_xt2 (A2 h v) e (v * h)%nat N); auto.
      * intros i j _ _. rewrite P6, E3. reflexivity.
    + exists W. split; [exact W0|]. repeat (split; [assumption|]). rewrite fl_S, map_app, <- app_assoc. exact W6.
Qed.
Lemma syn_level2 t b h v : wf t -> shp t = [b; h; v] -> (L <= h)%nat -> (L <= v)%nat -> (h mod 2 = 0)%nat -> (v mod 2 = 0)%nat ->
  mat_axis (mget (S2 h v)) (v * h) 0 (mat_axis (mget (A2 h v)) (v * h) 0 (cols t)) = cols t.
Proof.
  intros Hw Hs H1 H2 Eh Ev. destruct (HA h v H1 H2 Eh Ev) as (_ & _ & _ & [_ O2] & _ & _ & _ & T8).
  assert (Rt : (0 < rank (cols t))%nat) by (rewrite (rank_cols t b h v Hs); lia).
  apply mat_axis_id; [apply wf_cols, Hw|exact Rt|rewrite (shp_cols t b h v Hs); reflexivity|].
  intros i k Hi Hk. rewrite <- (O2 i k Hi Hk). apply sumf_ext. intros j Hj. rewrite T8. reflexivity.
Qed.
Lemma fold_ifwt2_ok J : forall t b h v, wf t -> shp t = [b; h; v] -> fitsN L (S J) [h; v] -> Nat.divide (2 ^ S J) h -> Nat.divide (2 ^ S J) v ->
  exists V y, ifwt_of (rev (List.concat (bmatsN (lsN S2) (S J) [h; v]))) = Ok V /\ s_wf V /\ s_tag V = g /\ s_rows V = (v * h)%nat /\ s_cols V = (v * h)%nat /\
    cat 0 (map cols (fl (S J) t)) = Ok y /\ rank y = 2%nat /\ nth 0 (shp y) 0%nat = (v * h)%nat /\ wf y /\ mat_axis (mget V) (v * h) 0 y = cols t.
Proof.
  induction J as [|J IH]; intros t b h v Hw Hs Hf Hd1 Hd2; destruct Hf as [Hn Hf]; apply Forall2_inv in Hn as [H1 H2]; apply pow_even in Hd1 as [Eh Hd1]; apply pow_even in Hd2 as [Ev Hd2];
    cbn [bmatsN List.concat lsN map app rev] in Hf |- *; unfold half_up in Hf |- *; rewrite (even_up_id h Eh), (even_up_id v Ev) in Hf |- *;
    destruct (HA h v H1 H2 Eh Ev) as (A1 & R1 & C1 & _ & B1 & B2 & B3 & _); destruct (HW h v H1 H2 Eh Ev) as [W1 W2]; pose proof (cat_level t b h v Hw Hs H1 H2 Eh Ev) as L3;
    assert (Rt : (0 < rank (cols t))%nat) by (rewrite (rank_cols t b h v Hs); lia); assert (Nt : nth 0 (shp (cols t)) 0%nat = (v * h)%nat) by (rewrite (shp_cols t b h v Hs); reflexivity).
  - exists (S2 h v), (mat_axis (mget (A2 h v)) (v * h) 0 (cols t)). split; [reflexivity|]. split; [exact W2|]. repeat (split; [assumption|]).
    split; [rewrite rank_mat_axis; apply (rank_cols t b h v Hs)|]. split; [rewrite shp_mat_axis, nth_updn_eq by exact Rt; reflexivity|]. split; [apply wf_mat_axis|]. apply (syn_level2 t b); assumption.
  - pose proof (fun k => half_sh k t b h v Hs Eh Ev) as Hh. set (h2 := (h / 2)%nat) in *. set (v2 := (v / 2)%nat) in *.
    destruct (IH (bd bLL t) b h2 v2) as (V & y & V0 & V1 & V2 & V3 & V4 & V5 & V6 & V7 & V8 & V9); [apply wf_core|apply Hh|exact Hf|exact Hd1|exact Hd2|].
    set (ml := rev (List.concat (bmatsN (lsN S2) (S J) [h2; v2]))) in *. change (map half_up [h2; v2]) with [half_up h2; half_up v2].
    match goal with |- context [ifwt_of (?q ++ [S2 h v])] => change q with ml end.
    destruct ml as [|s0 rest]; [discriminate|]. cbn [app ifwt_of] in V0 |- *. rewrite fold_ifwt_app, V0. cbn [rbind fold_ifwt].
    assert (Hq : (v2 * h2 <= v * h)%nat) by (unfold v2, h2; apply Nat.mul_le_mono; lia).
    rewrite B2. destruct (cat_identity_ok V (v * h)%nat V1) as (e & E0 & E1 & E2 & E3 & E4 & E5); [congruence|lia|]. rewrite E0. cbn [rbind].
    destruct (sp_mm_run (S2 h v) e) as [p Hp]; [congruence|congruence|]. rewrite Hp. cbn [rbind].
    destruct (sp_mm_ok _ _ _ Hp W2 E4) as (P1 & P2 & P3 & P4 & P5 & P6).
    assert (Rd : forall k, rank (cols (bd k t)) = 2%nat) by (intros k; apply (rank_cols _ b h2 v2), Hh).
    (* the concatenation *)
    assert (Hcy : cat 0 (map cols (fl (S (S J)) t)) = cat 0 (y :: map cols (map (fun k => bd k t) ksN))).
    { rewrite fl_S, map_app. unfold fl in V5 |- *. cbn [map app cat] in V5 |- *. rewrite cat_from_app, V5. reflexivity. }
    assert (Sy : shp y = [(v2 * h2)%nat; b]).
    { assert (E : shp (mat_axis (mget V) (v2 * h2) 0 y) = [(v2 * h2)%nat; b]) by (rewrite V9; apply (shp_cols _ b h2 v2), Hh). rewrite shp_mat_axis in E.
      unfold rank in V6. destruct (shp y) as [|y0 [|y1 [|? ?]]]; try discriminate. cbn [nth] in V7. cbn [updn] in E. congruence. }
    assert (Hz : exists z, cat 0 (y :: map cols (map (fun k => bd k t) ksN)) = Ok z).
    { assert (Hcats : forall us u n, shp u = [n; b] -> Forall (fun q => shp q = [(v2 * h2)%nat; b]) us -> exists z, cat_from (K := K) 0 u us = Ok z).
      { induction us as [|q us IHu]; intros u n Hu HF; cbn [cat_from]; [eauto|]. apply Forall_cons_iff in HF as [Hq1 HF].
        destruct (cat2_run 0 u q) as [z Hz]; [unfold rank; rewrite Hu, Hq1; reflexivity|unfold rank; rewrite Hu; cbn; lia|rewrite Hu, Hq1; reflexivity|].
        rewrite Hz. cbn [rbind]. destruct (cat2_inv _ _ _ _ Hz) as (Z1 & _). apply (IHu z _ ltac:(rewrite Z1, Hu; reflexivity) HF). }
      apply (Hcats _ y (v2 * h2)%nat Sy). cbn [map ksN]. repeat constructor; apply (shp_cols _ b h2 v2), Hh. }
    destruct Hz as [z Hz]. rewrite Hcy.
    destruct (cat_xt (mget V) (v2 * h2)%nat 0 y (map cols (map (fun k => bd k t) ksN)) V8 ltac:(lia) V7 z Hz) as (Z1 & Z2 & _ & Z3 & Z4 & Z5).
    rewrite V9 in Z5. change (cols (bd bLL t) :: map cols (map (fun k => bd k t) ksN)) with (map cols (bd bLL t :: map (fun k => bd k t) ksN)) in Z5. rewrite L3 in Z5. apply ok_injM in Z5.
    assert (Hnz : nth 0 (shp z) 0%nat = (v * h)%nat).
    { pose proof (f_equal (@shp K) Z5) as F. rewrite !shp_mat_axis in F. apply (f_equal (fun l => nth 0 l 0%nat)) in F. rewrite !nth_updn_eq in F by (first [exact Rt|unfold rank in *; lia]). congruence. }
    exists p, z. split; [reflexivity|]. split; [exact P5|]. split; [rewrite P4; exact B1|]. split; [rewrite P2; exact B2|]. split; [congruence|]. split; [exact Hz|]. split; [congruence|]. split; [exact Hnz|]. split; [exact Z1|].
    rewrite (mat_axis_mul (mget e) (mget (S2 h v)) (mget p) (v * h)%nat (v * h)%nat 0 z).
    + rewrite (mat_axis_ext (mget e) (xt (mget V) (v2 * h2))).
      * rewrite Hnz in Z5. rewrite <- Z5. apply (syn_level2 t b); assumption.
      * lia.
      * intros i j Hi Hj. rewrite Hnz in Hj. apply (mget_xt2 V e (v2 * h2)%nat (v * h)%nat); auto.
    + lia.
    + intros i j _ _. rewrite P6, B3. reflexivity.
Qed.
End Op.

(** ** batches of images *)
Lemma pre_batch t b h v : wf t -> shp t = [b; h; v] -> pre_t [1; 2]%nat t = t.
Proof.
  intros Hw Hs. assert (Hr : rank t = 3%nat) by (unfold rank; rewrite Hs; reflexivity).
  assert (Hg : good_axes (rank t) [1; 2]%nat). { rewrite Hr. split; [repeat constructor; cbn; lia|]. intros d [<-|[<-|[]]]; lia. }
  assert (Sp : shp (pre_t [1; 2]%nat t) = shp t) by (rewrite Hs; unfold pre_t; cbn [shp]; rewrite Hs; cbn; rewrite prodl_cons; f_equal; rewrite prodl_nil; lia).
  apply t_ext; [apply pre_t_wf, Hg|exact Hw|reflexivity|exact Sp|]. intros idx Hv. rewrite Sp in Hv. rewrite <- (get_pre_t [1; 2]%nat t idx Hg Hv). f_equal.
  rewrite Hs in Hv. apply valid3_inv in Hv as (i & j & k & -> & _). rewrite Hs, Hr. cbn. rewrite ?prodl_nil. f_equal. lia.
Qed.

Section C53.
Variable LA : linalg K.
Hypothesis HD : domain K.
Hypothesis HR : formally_real K.
Variables (w : wavelet K) (L : nat) (method : string) (m : mode).
Hypothesis HLA : la_ok LA method.
Hypothesis B : orthogonal_bank L (dec_lo w) (dec_hi w) (rec_lo w) (rec_hi w).
Hypothesis HI : boundary_independent L (dec_lo w) (dec_hi w).
Let HL := ob_two _ _ _ _ _ B.
Let Hdl := ob_len_lo _ _ _ _ _ B.
Let Hrl : List.length (rec_lo w) = L := bank_rl w L B.
Notation A2 := (PropsMatNon.A2 LA w method).
Notation S2 := (PropsMatNon.S2 LA w method).
Notation odd := (Some (mode_name m)).
Notation axb := [(-2)%Z; (-1)%Z].
Let HA g h v (H1 : (L <= h)%nat) (H2 : (L <= v)%nat) (E1 : (h mod 2 = 0)%nat) (E2 : (v mod 2 = 0)%nat) := proj2 (proj2 (A2_ok LA HD HR w L method HLA B HI g h v H1 H2 E1 E2)).
Lemma A2_wf g h v : (L <= h)%nat -> (L <= v)%nat -> (h mod 2 = 0)%nat -> (v mod 2 = 0)%nat -> s_wf (A2 g h v) /\ s_wf (S2 g h v).
Proof.
  intros H1 H2 E1 E2. destruct (boundary_2_ok LA HD HR w L method HLA B HI g h v H1 H2 E1 E2) as (A & S & C1 & C2 & C3 & C4 & C5 & C6 & C7 & C8 & C9 & C10 & C11 & C12 & _).
  unfold PropsMatNon.A2, PropsMatNon.S2. rewrite C1, C2. auto.
Qed.
Let two2 s : List.length s = 2%nat -> twod s := fun H => H.

Lemma call2_data level o x o' c b h v : wf x -> shp x = [b; h; v] -> new_mwavedecn 2 w level (AxSeq axb) method odd false = Ok o -> mw2_call LA o x = (o', Ok c) ->
  exists J, (0 < J)%nat /\ (0 < b)%nat /\ is_dtype_supported (tdtype x) = true /\ fitsN L J [h; v] /\ c = bwn2_coeffs (Mi (A2 (ttag x))) m [1; 2]%nat ksN J x /\ List.length (pc_items c) = S J /\
    pc_tensors c = fl m (A2 (ttag x)) J x /\ wn_sep o' = false /\ wn_mats o' = bmatsN (lmN (A2 (ttag x))) J [h; v] /\ wn_padded o' = anypad J [h; v].
Proof.
  intros Hw Hs Ho Hc. assert (Hr : rank x = 3%nat) by (unfold rank; rewrite Hs; reflexivity). apply new_mwn_inv in Ho as [Hl ->].
  destruct (non_outcome LA HD HR w L method HLA B HI m level axb x o' c Hw Hl Hc) as (Hdt & Hax & lev & Hlev & Hb & Ec). unfold okn in Hb.
  destruct (mw2_call_ok LA w method L (ttag x) false (lmN (A2 (ttag x))) twod twod_map two2 (non_lm LA HD HR w L method HLA B HI (ttag x)) Hdl HL (Mi (A2 (ttag x))) m ksN okn eq_refl odd (non_run LA HD HR w L method HLA B HI m (ttag x))
    (mkMWN w level axb method odd false None [] [] false []) x axb lev) as (o2 & E & (_ & _ & Q1 & _) & _ & _ & Q2 & Q3); auto; [repeat split|left; reflexivity|].
  rewrite E in Hc. apply (f_equal fst) in Hc. cbn [fst] in Hc. subst o2.
  assert (En : map (norm_axis (rank x)) axb = [1; 2]%nat) by (rewrite Hr; reflexivity). rewrite En in *. assert (Es : gather [1; 2]%nat 0%nat (shp x) = [h; v]) by (rewrite Hs; reflexivity). rewrite Es in *.
  set (J := bwn_levels (Z.to_nat lev) L [h; v]) in *. exists J. destruct Hb as [HJ Hb]. split; [exact HJ|]. split; [rewrite Hs in Hb; cbn in Hb; rewrite prodl_cons, prodl_nil in Hb; lia|]. split; [exact Hdt|].
  assert (Hf : fitsN L J [h; v]) by apply fits_levels_n. split; [exact Hf|]. split; [exact Ec|]. subst c. split.
  { unfold bwn2_coeffs. cbn [pc_items List.length]. rewrite map_length, rev_length, seq_length. reflexivity. }
  split; [|auto].
  assert (Hg : good_axes (rank x) [1; 2]%nat). { rewrite Hr. split; [repeat constructor; cbn; lia|]. intros d [<-|[<-|[]]]; lia. }
  rewrite (bwn2_g (Mi (A2 (ttag x))) m ksN [1; 2]%nat J x eq_refl).
  pose proof (gcoeffs_map (Mi (A2 (ttag x))) m [1; 2]%nat 2 L eq_refl HL PTup ksN wrap2_map J x Hw Hg) as G1. rewrite Es in G1. specialize (G1 Hf). apply (f_equal (@pc_tensors K)) in G1. rewrite pc_map_tensors in G1.
  rewrite (pre_batch x b h v Hw Hs) in G1.
  transitivity (map (pre_t [1; 2]%nat) (pc_tensors (mkPC false (gcoeffs 2 PTup ksN (bwn_band (Mi (A2 (ttag x))) m [1; 2]%nat) J x)))).
  - rewrite <- (map_id (pc_tensors _)) at 1. apply map_ext_in. intros t Ht. symmetry.
    destruct (gcoeffs_facts (Mi (A2 (ttag x))) m [1; 2]%nat 2 L eq_refl HL PTup ksN (wrap2_t ksN) J x Hw Hg) with (t := t) as (T1 & T2 & _); [rewrite Es; exact Hf|exact Ht|].
    rewrite Hr in T2. unfold rank in T2. destruct (shp t) as [|b0 [|h0 [|v0 [|? ?]]]] eqn:St; try discriminate. apply (pre_batch t b0 h0 v0 T1 St).
  - rewrite G1. unfold fl, pc_tensors, gcoeffs. cbn [pc_items flat_map pv_tensors app]. f_equal. rewrite !flat_map_concat_map, map_map. reflexivity.
Qed.

(** C53: after a padding-free call on a batch of h x v images the operator, applied to the images stored column by
    column, gives the returned coefficients (each band stored column by column, in the order in which they are returned) *)
Theorem C53_fwt_operator level o x o' c b h v : wf x -> shp x = [b; h; v] -> new_mwavedecn 2 w level (AxSeq axb) method odd false = Ok o -> mw2_call LA o x = (o', Ok c) ->
  Nat.divide (2 ^ (List.length (pc_items c) - 1)) h -> Nat.divide (2 ^ (List.length (pc_items c) - 1)) v ->
  exists W, sparse_fwt_operator_2 o' = Ok W /\ s_rows W = (v * h)%nat /\ s_cols W = (v * h)%nat /\ s_tag W = ttag x /\
    cat 0 (map image_columns (pc_tensors c)) = Ok (mat_axis (mget W) (v * h) 0 (image_columns x)).
Proof.
  intros Hw Hs Ho Hc Hd1 Hd2. destruct (call2_data level o x o' c b h v Hw Hs Ho Hc) as (J & HJ & Hb & Hdt & Hf & Ec & Hlen & Et & Q1 & Q2 & Q3).
  rewrite Hlen in Hd1, Hd2. replace (S J - 1)%nat with J in Hd1, Hd2 by lia. destruct J as [|J]; [lia|].
  assert (Hp : anypad (S J) [h; v] = false) by (apply anypad_false; auto). rewrite Hp in Q3. destruct Hf as [Hn Hf]. apply Forall2_inv in Hn as [H1 H2].
  apply pow_even in Hd1 as [Eh Hd1]. apply pow_even in Hd2 as [Ev Hd2].
  set (g := ttag x) in *. change image_columns with (@cols K).
  destruct (HA g h v H1 H2 Eh Ev) as (A1 & R1 & C1 & _). destruct (A2_wf g h v H1 H2 Eh Ev) as [W1 _].
  pose proof (cat_level m L g (A2 g) (S2 g) HL (HA g) (A2_wf g) x b h v Hw Hs H1 H2 Eh Ev) as L3. cbn [map] in Hf. unfold half_up in Hf. rewrite (even_up_id h Eh), (even_up_id v Ev) in Hf.
  destruct (fold_fwt2_ok m L g (A2 g) (S2 g) HL (HA g) (A2_wf g) J (bandc (Mi (A2 g)) m bLL x) b (h / 2)%nat (v / 2)%nat (map cols (map (fun k => bandc (Mi (A2 g)) m k x) ksN)) (A2 g h v) (v * h)%nat (cols x)) as (W & W0 & W2 & W3 & W4 & W5 & W6); auto.
  { apply wf_core. }
  { apply half_sh; assumption. }
  { rewrite (rank_cols x b h v Hs). lia. }
  { rewrite (shp_cols x b h v Hs). exact C1. }
  exists W. split; [|split; [exact W4|split; [rewrite W5, (shp_cols x b h v Hs); reflexivity|split; [exact W3|]]]].
  - unfold sparse_fwt_operator_2. rewrite Q1, Q2, Q3. cbn [bmatsN lmN map]. unfold half_up. rewrite (even_up_id h Eh), (even_up_id v Ev).
    destruct (bmatsN (lmN (A2 g)) J [h / 2; v / 2]%nat) as [|l0 ls0]; exact W0.
  - rewrite Et, fl_S, map_app. exact W6.
Qed.
(** ... and the operator of the inverse transform maps these coefficients back to the images *)
Theorem C53_ifwt_operator level o x o' c b h v r r' y : wf x -> shp x = [b; h; v] -> new_mwavedecn 2 w level (AxSeq axb) method odd false = Ok o -> mw2_call LA o x = (o', Ok c) ->
  new_mwaverecn 2 w (AxSeq axb) method false = Ok r -> mr2_call LA r (pc_items c) = (r', Ok y) ->
  Nat.divide (2 ^ (List.length (pc_items c) - 1)) h -> Nat.divide (2 ^ (List.length (pc_items c) - 1)) v ->
  exists z V, cat 0 (map image_columns (pc_tensors c)) = Ok z /\ sparse_ifwt_operator_2 r' = Ok V /\ s_rows V = (v * h)%nat /\ s_cols V = (v * h)%nat /\ s_tag V = ttag x /\
    mat_axis (mget V) (v * h) 0 z = image_columns y /\ y = x.
Proof.
  intros Hw Hs Ho Hc Hr Hy Hd1 Hd2. destruct (call2_data level o x o' c b h v Hw Hs Ho Hc) as (J & HJ & Hb & Hdt & Hf & Ec & Hlen & Et & Q1 & Q2 & Q3).
  rewrite Hlen in Hd1, Hd2. replace (S J - 1)%nat with J in Hd1, Hd2 by lia. destruct J as [|J]; [lia|].
  assert (Hp : anypad (S J) [h; v] = false) by (apply anypad_false; auto). rewrite Hp in Q3.
  pose proof (pow_even J h Hd1) as [Eh _]. pose proof (pow_even J v Hd2) as [Ev _]. set (g := ttag x) in *. change image_columns with (@cols K).
  assert (Hrk : rank x = 3%nat) by (unfold rank; rewrite Hs; reflexivity).
  apply new_mrn_inv in Hr as [_ ->].
  assert (Hax : axes_ok (rank x) axb). { destruct (mw2_call_inv LA o o' axb x c Hw) as (_ & H & _); auto; [apply new_mwn_inv in Ho as [_ ->]; reflexivity]. }
  assert (En : map (norm_axis (rank x)) axb = [1; 2]%nat) by (rewrite Hrk; reflexivity). assert (Es : gather [1; 2]%nat 0%nat (shp x) = [h; v]) by (rewrite Hs; reflexivity).
  destruct (mr2_call_ok LA w method L g false (lmN (A2 g)) (lsN (S2 g)) twod twod_map two2 (non_lm LA HD HR w L method HLA B HI g) (non_ls LA HD HR w L method HLA B HI g) Hdl Hrl HL (Mi (A2 g)) m ksN okn eq_refl odd (non_run LA HD HR w L method HLA B HI m g) (non_rec LA HD HR w L method HLA B HI m g)
    (mkMRN w axb method false [] None None false) x axb (S J)) as (r2 & E2 & (_ & _ & Q4 & _) & _ & Q5); auto.
  { repeat split. }
  { rewrite En, Es. exact Hf. }
  { left. reflexivity. }
  { rewrite En, Hs. cbn. rewrite prodl_cons, prodl_nil. lia. }
  rewrite En in *. rewrite Es in *. subst c. rewrite E2 in Hy. pose proof (f_equal fst Hy) as Hy1. pose proof (f_equal snd Hy) as Hy2. cbn [fst snd] in Hy1, Hy2. subst r2. apply ok_injM in Hy2. cbn [Nat.eqb] in Hy2.
  assert (Hg : good_axes (rank x) [1; 2]%nat). { rewrite Hrk. split; [repeat constructor; cbn; lia|]. intros d [<-|[<-|[]]]; lia. }
  rewrite (ext_even_id m [1; 2]%nat x Hw Hg) in Hy2 by (rewrite Es; repeat constructor; assumption). subst y.
  destruct (Q5 ltac:(lia)) as [Q6 Q7]. specialize (Q7 eq_refl). cbn [map] in Q7. rewrite (even_up_id h Eh), (even_up_id v Ev), Hp in Q7.
  destruct (fold_ifwt2_ok m L g (A2 g) (S2 g) HL (HA g) (A2_wf g) J x b h v Hw Hs Hf Hd1 Hd2) as (V & z & V0 & V1 & V2 & V3 & V4 & V5 & V6 & V7 & V8 & V9).
  exists z, V. split; [rewrite Et; exact V5|]. split; [|split; [exact V3|split; [exact V4|split; [exact V2|split; [exact V9|reflexivity]]]]].
  unfold sparse_ifwt_operator_2. rewrite Q4, Q6, Q7. unfold ifwt_of in V0. cbn [bmatsN map lsN] in V0 |- *. destruct (bmatsN (lsN (S2 g)) J [half_up h; half_up v]) as [|l0 ls0]; exact V0.
Qed.
(** the cases in which the library refuses *)
Theorem C53_padded level o x o' c b h v : wf x -> shp x = [b; h; v] -> new_mwavedecn 2 w level (AxSeq axb) method odd false = Ok o -> mw2_call LA o x = (o', Ok c) ->
  let J := (List.length (pc_items c) - 1)%nat in (2 <= J)%nat -> ~ (Nat.divide (2 ^ J) h /\ Nat.divide (2 ^ J) v) -> sparse_fwt_operator_2 o' = Raise NotImplementedError.
Proof.
  intros Hw Hs Ho Hc J0 HJ2 Hn. destruct (call2_data level o x o' c b h v Hw Hs Ho Hc) as (J & HJ & Hb & Hdt & Hf & Ec & Hlen & Et & Q1 & Q2 & Q3).
  assert (EJ : J0 = J) by (unfold J0; lia). rewrite EJ in *. destruct (anypad J [h; v]) eqn:Ep; [|exfalso; apply Hn, anypad_false; exact Ep].
  unfold sparse_fwt_operator_2. rewrite Q1, Q2, Q3. destruct J as [|[|J]]; [lia|lia|]. cbn [bmatsN lmN map]. reflexivity.
Qed.
End C53.
Theorem C53_separable (o : mwavedecn K) (r : mwaverecn K) : wn_sep o = true -> rn_sep r = true -> sparse_fwt_operator_2 o = Raise NotImplementedError /\ sparse_ifwt_operator_2 r = Raise NotImplementedError.
Proof. intros H1 H2. unfold sparse_fwt_operator_2, sparse_ifwt_operator_2. rewrite H1, H2. auto. Qed.
Theorem C53_not_called (w : wavelet K) level axes method odd o r : new_mwavedecn 2 w level axes method odd false = Ok o -> new_mwaverecn 2 w axes method false = Ok r ->
  sparse_fwt_operator_2 o = Raise ValueError /\ sparse_ifwt_operator_2 r = Raise ValueError.
Proof.
  unfold new_mwavedecn, new_mwaverecn. destruct (ensure_axes axes 2) as [ax|e]; cbn [rbind]; [|discriminate]. destruct (negb (orth_supported method)); [discriminate|]. destruct (negb _); [discriminate|].
  intros H1 H2. injection H1 as <-. injection H2 as <-. auto.
Qed.
End NO.
