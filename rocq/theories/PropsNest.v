(** C71: levels compose and nest for the stationary and the boundary transforms. *)
From Coq Require Import List Arith ZArith QArith Lia Bool String Ascii Ring.
From Coq Require Import ZifyNat ZifyBool.
From Verif Require Import Base Sums Tensor TensorFacts Util Perm Plumb Accept Spec Conv1 Conv2 PadFacts CoreFacts AnalysisInv Synthesis Filters Wave1 Wave1Inv Rec1 Props1 RecN Sep SepFacts Lin Swt SpecSwt SwtFacts SwtDec SwtRec PropsSwt Packets SpecPk PacketFacts PacketConv PropsPk PropsNd Sparse SparseFacts SpecMat SpecMatN SparseMM LinAlg Mat1 MatN MatOrth Boundary MatPre Mat1Facts Mat1Call Tags PropsMat1 MatNFacts MatNLoop MatNSep MatNNon MatNCall PropsMatN PropsMatN2 PropsMatNon EnergyN Surj PropsSurj PropsLin PropsBatch.
Import ListNotations.
Ltac Zify.zify_post_hook ::= Z.div_mod_to_equations.
Local Open Scope nat_scope.
Local Arguments Nat.div : simpl never.
Local Arguments Nat.modulo : simpl never.

(** * The stationary transform: the details of a shorter analysis are the finest entries of a longer one *)
Section SwtNest.
Context {K : CRing}.
Implicit Types (x : tensor K).
Theorem C71_swt x w L l1 l2 h axis c1 c2 : swt_input x h axis -> even_bank w L -> (0 <= l1 <= l2)%Z ->
  swt x w (Some l1) h = Ok c1 -> swt x w (Some l2) h = Ok c2 ->
  tl (pc_items c1) = skipn (Z.to_nat (l2 - l1) + 1) (pc_items c2) /\ List.length (tl (pc_items c1)) = Z.to_nat l1.
Proof.
  intros (Hw & Hd & Hh & Hax & Hn) (H1 & H2 & HL & He) Hl E1 E2.
  rewrite (swt_gen x w L (Z.to_nat l1) (Some l1) h axis) in E1 by (auto; reflexivity). rewrite (swt_gen x w L (Z.to_nat l2) (Some l2) h axis) in E2 by (auto; reflexivity).
  apply ok_inj in E1. apply ok_inj in E2. subst c1 c2. cbn [pc_items gspec map tl]. rewrite !map_length, rev_length, seq_length. split; [|reflexivity].
  rewrite Nat.add_1_r. cbn [skipn]. rewrite !map_map, skipn_map. f_equal. set (n := Z.to_nat (l2 - l1)). replace (Z.to_nat l2) with (Z.to_nat l1 + n) by lia.
  rewrite seq_app, rev_app_distr. rewrite skipn_app, skipn_all2 by (rewrite rev_length, seq_length; lia). rewrite rev_length, seq_length, Nat.sub_diag. reflexivity.
Qed.
End SwtNest.

Section PN.
Context {K : CRing}.
Implicit Types (t u x y : tensor K).

Lemma iter_plus (A : Type) (f : A -> A) a b z : Nat.iter (a + b) f z = Nat.iter b f (Nat.iter a f z).
Proof. induction b as [|b IH]; [rewrite Nat.add_0_r; reflexivity|]. rewrite Nat.add_succ_r. cbn [Nat.iter nat_rect]. f_equal. exact IH. Qed.
Lemma bwn_levels_add L a b : forall s, bwn_levels (a + b) L s = bwn_levels a L s + bwn_levels b L (Nat.iter (bwn_levels a L s) (map half_up) s).
Proof.
  induction a as [|a IH]; intros s; [reflexivity|]. cbn [Nat.add bwn_levels]. destruct (existsb (fun n => n <? L) s) eqn:E.
  - cbn [Nat.iter nat_rect Nat.add]. destruct b as [|b]; [reflexivity|]. cbn [bwn_levels]. rewrite E. reflexivity.
  - rewrite iter_r. cbn [Nat.add]. f_equal. apply IH.
Qed.
Lemma bw_levels_add L a b : forall n, bw_levels (a + b) L n = bw_levels a L n + bw_levels b L (Nat.iter (bw_levels a L n) half_up n).
Proof.
  induction a as [|a IH]; intros n; [reflexivity|]. cbn [Nat.add bw_levels]. destruct (n <? L) eqn:E.
  - cbn [Nat.iter nat_rect Nat.add]. destruct b as [|b]; [reflexivity|]. cbn [bw_levels]. rewrite E. reflexivity.
  - rewrite iter_r. cbn [Nat.add]. f_equal. apply IH.
Qed.
Lemma rev_seq_add a b : rev (seq 0 (a + b)) = map (fun j => a + j) (rev (seq 0 b)) ++ rev (seq 0 a).
Proof. rewrite seq_app, rev_app_distr. f_equal. cbn [Nat.add]. rewrite map_rev. f_equal. rewrite <- (Nat.add_0_r a) at 1. generalize 0. induction b as [|b IH]; intros z; [reflexivity|]. cbn [seq map]. f_equal. rewrite <- IH. f_equal. lia. Qed.
Lemma bwn_approx_add (M : list nat -> list nat -> list nat -> K) m nax a b x : bwn_approx M m nax (a + b) x = bwn_approx M m nax b (bwn_approx M m nax a x).
Proof. apply iter_plus. Qed.
Lemma bwn2_add (M : list nat -> list nat -> list nat -> K) m nax ks a b x :
  bwn2_coeffs M m nax ks (a + b) x = mkPC false (pc_items (bwn2_coeffs M m nax ks b (bwn_approx M m nax a x)) ++ tl (pc_items (bwn2_coeffs M m nax ks a x))).
Proof.
  unfold bwn2_coeffs. cbn [pc_items tl app]. f_equal. rewrite bwn_approx_add. f_equal. rewrite rev_seq_add, map_app, map_map. f_equal. apply map_ext. intros j. f_equal. apply map_ext. intros k. rewrite bwn_approx_add. reflexivity.
Qed.
Lemma bwn3_add (M : list nat -> list nat -> list nat -> K) m nax ks a b x :
  bwn3_coeffs M m nax ks (a + b) x = mkPC false (pc_items (bwn3_coeffs M m nax ks b (bwn_approx M m nax a x)) ++ tl (pc_items (bwn3_coeffs M m nax ks a x))).
Proof.
  unfold bwn3_coeffs. cbn [pc_items tl app]. f_equal. rewrite bwn_approx_add. f_equal. rewrite rev_seq_add, map_app, map_map. f_equal. apply map_ext. intros j. f_equal. apply map_ext. intros k. rewrite bwn_approx_add. reflexivity.
Qed.
Lemma bapprox_facts (M : list nat -> list nat -> list nat -> K) m nax J : forall x, wf x -> good_axes (rank x) nax ->
  let y := bwn_approx M m nax J x in wf y /\ rank y = rank x /\ fsz nax (shp y) = fsz nax (shp x) /\ ttag y = ttag x /\ gather nax 0 (shp y) = Nat.iter J (map half_up) (gather nax 0 (shp x)).
Proof.
  induction J as [|J IH]; intros x Hw Hg; cbv zeta; [cbn; auto|]. unfold bwn_approx. cbn [Nat.iter nat_rect]. fold (Nat.iter J (bwn_band M m nax (repeat false (List.length nax))) x). fold (bwn_approx M m nax J x).
  destruct (IH x Hw Hg) as (A1 & A2 & A3 & A4 & A5). set (y := bwn_approx M m nax J x) in *.
  assert (Hg' : good_axes (rank y) nax) by (rewrite A2; exact Hg). split; [apply wf_make|]. split; [unfold bwn_band; rewrite rank_along; exact A2|]. split; [unfold bwn_band; rewrite fsz_along by exact Hg'; exact A3|]. split; [exact A4|].
  unfold bwn_band. rewrite gather_along by (try exact Hg'; rewrite map_length, gather_length; reflexivity). rewrite A5. reflexivity.
Qed.

Lemma bw_size_ext m a x : (a < rank x) -> bw_size a (ext_even m [a] x) = bw_size a x.
Proof.
  intros Ha. unfold bw_size. rewrite shp_ext_even. unfold gather. cbn [map upds]. rewrite nth_updn_eq by exact Ha. apply even_up_id, even_up_even.
Qed.
Lemma ext_even_twice m a x : wf x -> a < rank x -> ext_even m [a] (ext_even m [a] x) = ext_even m [a] x.
Proof.
  intros Hw Ha. pose proof (good_axes1 _ _ Ha) as Hg. apply ext_even_id; [apply wf_make|unfold ext_even; rewrite rank_along; exact Hg|].
  constructor; [|constructor]. rewrite shp_ext_even. unfold gather. cbn [map upds]. rewrite nth_updn_eq by exact Ha. apply even_up_even.
Qed.
Lemma bw_lo_ext (A : nat -> nat -> nat -> K) m a x : wf x -> a < rank x -> bw_lo A m a (ext_even m [a] x) = bw_lo A m a x.
Proof. intros Hw Ha. unfold bw_lo. rewrite bw_size_ext, ext_even_twice by assumption. reflexivity. Qed.
Lemma bw_hi_ext (A : nat -> nat -> nat -> K) m a x : wf x -> a < rank x -> bw_hi A m a (ext_even m [a] x) = bw_hi A m a x.
Proof. intros Hw Ha. unfold bw_hi. rewrite bw_size_ext, ext_even_twice by assumption. reflexivity. Qed.
Lemma bw_coeffs_ext (A : nat -> nat -> nat -> K) m a J x : wf x -> a < rank x -> 0 < J -> bw_coeffs A m a J (ext_even m [a] x) = bw_coeffs A m a J x.
Proof.
  intros Hw Ha HJ. unfold bw_coeffs. assert (Q : forall j, 0 < j -> bw_approx A m a j (ext_even m [a] x) = bw_approx A m a j x).
  { intros [|j] Hj; [lia|]. unfold bw_approx. rewrite !iter_r, bw_lo_ext by assumption. reflexivity. }
  rewrite Q by exact HJ. f_equal. apply map_ext. intros [|j]; [apply bw_hi_ext; assumption|]. rewrite Q by lia. reflexivity.
Qed.
Lemma bw_coeffs_add (A : nat -> nat -> nat -> K) m a i j x : bw_coeffs A m a (i + j) x = bw_coeffs A m a j (bw_approx A m a i x) ++ tl (bw_coeffs A m a i x).
Proof.
  unfold bw_coeffs. cbn [tl app]. unfold bw_approx at 1. rewrite iter_plus. f_equal. rewrite rev_seq_add, map_app, map_map. f_equal. apply map_ext. intros k. unfold bw_approx. rewrite iter_plus. reflexivity.
Qed.
Lemma bw_approx_facts (A : nat -> nat -> nat -> K) m a J x : wf x -> a < rank x ->
  let y := bw_approx A m a J x in wf y /\ rank y = rank x /\ ttag y = ttag x /\ nth a (shp y) 0 = Nat.iter J half_up (nth a (shp x) 0).
Proof.
  intros Hw Ha. unfold bw_approx. induction J as [|J IH]; cbv zeta in *; [cbn; auto|]. cbn [Nat.iter nat_rect]. fold (Nat.iter J (bw_lo A m a) x). destruct IH as (A1 & A2 & A3 & A4). set (y := Nat.iter J (bw_lo A m a) x) in *.
  split; [apply wf_make|]. split; [unfold rank; rewrite bw_lo_shp, updn_length; exact A2|]. split; [exact A3|]. rewrite bw_lo_shp. rewrite nth_updn_eq by (fold (rank y); lia). change (half_up (nth a (shp y) 0) = half_up (Nat.iter J half_up (nth a (shp x) 0))). rewrite <- A4. reflexivity.
Qed.
Lemma bw_levels_up L lev n : L <= n -> bw_levels lev L (even_up n) = bw_levels lev L n.
Proof.
  intros H. destruct lev as [|lev]; [reflexivity|]. cbn [bw_levels]. assert (n <= even_up n) by (unfold even_up; lia). destruct (n <? L) eqn:E1; [lia|]. destruct (even_up n <? L) eqn:E2; [lia|]. rewrite even_up_id by apply even_up_even. reflexivity.
Qed.

Variable LA : linalg K.
Hypothesis HD : domain K.
Hypothesis HR : formally_real K.
Variables (w : wavelet K) (L : nat) (method : string) (m : mode).
Hypothesis HLA : la_ok LA method.
Hypothesis B : orthogonal_bank L (dec_lo w) (dec_hi w) (rec_lo w) (rec_hi w).
Hypothesis HI : boundary_independent L (dec_lo w) (dec_hi w).
Notation odd := (Some (mode_name m)).

Lemma lev_some l s lev : wn_lev w (Some l) s = Ok lev -> lev = l /\ (0 < l)%Z.
Proof. unfold wn_lev. destruct (l <=? 0)%Z eqn:E; [discriminate|]. intros H. apply ok_inj in H. lia. Qed.
Lemma lev_some_ok l s : (0 < l)%Z -> wn_lev w (Some l) s = Ok l.
Proof. unfold wn_lev. intros H. destruct (l <=? 0)%Z eqn:E; [lia|reflexivity]. Qed.

(** C71: l1 levels, then l2 more on the approximation, are l1 + l2 levels. *)
Theorem C71_matrix_2d l1 l2 axes o1 o2 o x ox oy A b D c2 : wf x ->
  new_mwavedecn 2 w (Some l1) (AxSeq axes) method odd true = Ok o1 -> new_mwavedecn 2 w (Some l2) (AxSeq axes) method odd true = Ok o2 ->
  new_mwavedecn 2 w (Some (l1 + l2)%Z) (AxSeq axes) method odd true = Ok o ->
  mw2_call LA o1 x = (ox, Ok (mkPC b (PT A :: D))) -> mw2_call LA o2 A = (oy, Ok c2) ->
  snd (mw2_call LA o x) = Ok (mkPC b (pc_items c2 ++ D)).
Proof using All.
  intros Wx Ho1 Ho2 Ho E1 E2. apply new_mwn_inv in Ho1 as [Hl ->]. apply new_mwn_inv in Ho2 as [_ ->]. apply new_mwn_inv in Ho as [_ ->].
  destruct (sep_outcome LA HD HR w L method m HLA B HI (Some l1) axes x ox _ Wx Hl E1) as (Hd & Hax & lev & Hlev & Hb & Ec). apply lev_some in Hlev as [-> P1].
  set (nax := map (norm_axis (rank x)) axes) in *. set (s := gather nax 0 (shp x)) in *. set (J1 := bwn_levels (Z.to_nat l1) L s) in *.
  pose proof (good_axes_ok _ _ Hax) as Hg. fold nax in Hg.
  assert (EA : A = bwn_approx (tprod (Bm LA w method (ttag x))) m nax J1 x /\ b = false /\ D = tl (pc_items (bwn2_coeffs (tprod (Bm LA w method (ttag x))) m nax [bLH; bHL; bHH] J1 x))).
  { unfold bwn2_coeffs in Ec |- *. injection Ec as Q1 Q2 Q3. auto. }
  destruct EA as (EA & -> & ->). destruct (bapprox_facts (tprod (Bm LA w method (ttag x))) m nax J1 x Wx Hg) as (F1 & F2 & F3 & F4 & F5). rewrite <- EA in F1, F2, F3, F4, F5.
  destruct (sep_outcome LA HD HR w L method m HLA B HI (Some l2) axes A oy _ F1 Hl E2) as (Hd' & Hax' & lev & Hlev & Hb' & ->). apply lev_some in Hlev as [-> P2].
  rewrite F2, F4 in *. fold nax in Hb' |- *. rewrite F5 in *. rewrite F3 in Hb'. fold s in Hb' |- *.
  destruct (sep_call LA HD HR w L method m HLA B HI (Some (l1 + l2)%Z) axes x (l1 + l2)%Z Wx Hd Hl Hax) as [o' E].
  - apply lev_some_ok. lia.
  - fold nax s. cbv beta. rewrite Z2Nat.inj_add by lia. rewrite bwn_levels_add. fold J1. intros Hp. destruct (Nat.eq_dec J1 0) as [E0|]; [|apply Hb; lia]. apply Hb'. lia.
  - rewrite E. cbn [snd]. f_equal. fold nax s. rewrite Z2Nat.inj_add by lia. rewrite bwn_levels_add. fold J1. rewrite bwn2_add, <- EA. reflexivity.
Qed.
Theorem C71_matrix_2d_nonseparable l1 l2 axes o1 o2 o x ox oy A b D c2 : wf x ->
  new_mwavedecn 2 w (Some l1) (AxSeq axes) method odd false = Ok o1 -> new_mwavedecn 2 w (Some l2) (AxSeq axes) method odd false = Ok o2 ->
  new_mwavedecn 2 w (Some (l1 + l2)%Z) (AxSeq axes) method odd false = Ok o ->
  mw2_call LA o1 x = (ox, Ok (mkPC b (PT A :: D))) -> mw2_call LA o2 A = (oy, Ok c2) ->
  snd (mw2_call LA o x) = Ok (mkPC b (pc_items c2 ++ D)).
Proof using All.
  intros Wx Ho1 Ho2 Ho E1 E2. apply new_mwn_inv in Ho1 as [Hl ->]. apply new_mwn_inv in Ho2 as [_ ->]. apply new_mwn_inv in Ho as [_ ->].
  destruct (non_outcome LA HD HR w L method HLA B HI m (Some l1) axes x ox _ Wx Hl E1) as (Hd & Hax & lev & Hlev & Hb & Ec). apply lev_some in Hlev as [-> P1].
  set (nax := map (norm_axis (rank x)) axes) in *. set (s := gather nax 0 (shp x)) in *. set (J1 := bwn_levels (Z.to_nat l1) L s) in *.
  pose proof (good_axes_ok _ _ Hax) as Hg. fold nax in Hg.
  match type of Ec with _ = bwn2_coeffs ?M _ _ ?ks _ _ => assert (EA : A = bwn_approx M m nax J1 x /\ b = false /\ D = tl (pc_items (bwn2_coeffs M m nax ks J1 x)));
    [unfold bwn2_coeffs in Ec |- *; injection Ec as Q1 Q2 Q3; auto|destruct (bapprox_facts M m nax J1 x Wx Hg) as (F1 & F2 & F3 & F4 & F5)] end.
  destruct EA as (EA & -> & ->). rewrite <- EA in F1, F2, F3, F4, F5.
  destruct (non_outcome LA HD HR w L method HLA B HI m (Some l2) axes A oy _ F1 Hl E2) as (Hd' & Hax' & lev & Hlev & Hb' & ->). apply lev_some in Hlev as [-> P2].
  rewrite F2, F4 in *. fold nax in Hb' |- *. rewrite F5 in *. rewrite F3 in Hb'. fold s in Hb' |- *.
  destruct (non_call LA HD HR w L method HLA B HI m (Some (l1 + l2)%Z) axes x (l1 + l2)%Z Wx Hd Hl Hax) as [o' E].
  - apply lev_some_ok. lia.
  - fold nax s. rewrite Z2Nat.inj_add by lia. rewrite bwn_levels_add. fold J1. destruct Hb as [Hb Hc]. split; [|exact Hc]. clear - Hb. lia.
  - rewrite E. cbn [snd]. f_equal. fold nax s. rewrite Z2Nat.inj_add by lia. rewrite bwn_levels_add. fold J1. rewrite bwn2_add, <- EA. reflexivity.
Qed.
Theorem C71_matrix_3d l1 l2 axes o1 o2 o x ox oy A b D c2 : wf x ->
  new_mwavedecn 3 w (Some l1) (AxSeq axes) method odd true = Ok o1 -> new_mwavedecn 3 w (Some l2) (AxSeq axes) method odd true = Ok o2 ->
  new_mwavedecn 3 w (Some (l1 + l2)%Z) (AxSeq axes) method odd true = Ok o ->
  mw3_call LA o1 x = (ox, Ok (mkPC b (PT A :: D))) -> mw3_call LA o2 A = (oy, Ok c2) ->
  snd (mw3_call LA o x) = Ok (mkPC b (pc_items c2 ++ D)).
Proof using All.
  intros Wx Ho1 Ho2 Ho E1 E2. apply new_mwn_inv in Ho1 as [Hl ->]. apply new_mwn_inv in Ho2 as [_ ->]. apply new_mwn_inv in Ho as [_ ->].
  destruct (three_outcome LA HD HR w L method m HLA B HI (Some l1) axes x ox _ Wx Hl E1) as (Hd & Hax & lev & Hlev & Ec). apply lev_some in Hlev as [-> P1].
  set (nax := map (norm_axis (rank x)) axes) in *. set (s := gather nax 0 (shp x)) in *. set (J1 := bwn_levels (Z.to_nat l1) L s) in *.
  pose proof (good_axes_ok _ _ Hax) as Hg. fold nax in Hg.
  match type of Ec with _ = bwn3_coeffs ?M _ _ ?ks _ _ => assert (EA : A = bwn_approx M m nax J1 x /\ b = false /\ D = tl (pc_items (bwn3_coeffs M m nax ks J1 x)));
    [unfold bwn3_coeffs in Ec |- *; injection Ec as Q1 Q2 Q3; auto|destruct (bapprox_facts M m nax J1 x Wx Hg) as (F1 & F2 & F3 & F4 & F5)] end.
  destruct EA as (EA & -> & ->). rewrite <- EA in F1, F2, F3, F4, F5.
  destruct (three_outcome LA HD HR w L method m HLA B HI (Some l2) axes A oy _ F1 Hl E2) as (Hd' & Hax' & lev & Hlev & ->). apply lev_some in Hlev as [-> P2].
  rewrite F2, F4 in *. fold nax. rewrite F5 in *. fold s.
  destruct (call3 LA HD HR w L method m HLA B HI (Some (l1 + l2)%Z) axes x (l1 + l2)%Z Wx Hd Hl Hax) as [o' E].
  - apply lev_some_ok. lia.
  - rewrite E. cbn [snd]. f_equal. fold nax s. rewrite Z2Nat.inj_add by lia. rewrite bwn_levels_add. fold J1. rewrite bwn3_add, <- EA. reflexivity.
Qed.
Lemma lev1_some l n lev : mw_lev w (Some l) n = Ok lev -> lev = l /\ (0 < l)%Z.
Proof. unfold mw_lev. destruct (l <=? 0)%Z eqn:E; [discriminate|]. intros H. apply ok_inj in H. lia. Qed.
Lemma lev1_some_ok l n : (0 < l)%Z -> mw_lev w (Some l) n = Ok l.
Proof. unfold mw_lev. intros H. destruct (l <=? 0)%Z eqn:E; [lia|reflexivity]. Qed.
(** One axis: the two calls compose as long as the approximation is at least as long as the filters; a shorter
    approximation ends the long analysis (while a second call may still extend it, see C71_matrix_1d_corner). *)
Theorem C71_matrix_1d l1 l2 axis o1 o2 o x ox oy A b D c2 : wf x ->
  new_mwavedec w (Some l1) (AxInt axis) method odd = Ok o1 -> new_mwavedec w (Some l2) (AxInt axis) method odd = Ok o2 ->
  new_mwavedec w (Some (l1 + l2)%Z) (AxInt axis) method odd = Ok o ->
  mw_call LA o1 x = (ox, Ok (mkPC b (PT A :: D))) -> mw_call LA o2 A = (oy, Ok c2) ->
  snd (mw_call LA o x) = Ok (if nth (norm_axis (rank x) axis) (shp A) 0 <? L then mkPC b (PT A :: D) else mkPC b (pc_items c2 ++ D)).
Proof using All.
  intros Wx Ho1 Ho2 Ho E1 E2. apply new_mw_inv in Ho1 as ->. apply new_mw_inv in Ho2 as ->. apply new_mw_inv in Ho as ->.
  destruct (mat1_outcome LA HD HR w L method m HLA B HI (Some l1) axis x ox _ Wx E1) as (Hd & Hax & He & lev & Hlev & Ec). apply lev1_some in Hlev as [-> P1].
  set (a := norm_axis (rank x) axis) in *. set (n := even_up (nth a (shp x) 0)) in *. set (J1 := bw_levels (Z.to_nat l1) L n) in *. assert (Ha : a < rank x) by (apply norm_axis_lt; exact Hax).
  set (x1 := ext_even m [a] x) in *. set (M := Bm LA w method (ttag x)) in *.
  assert (W1 : wf x1) by apply wf_make. assert (R1 : rank x1 = rank x) by (unfold x1, ext_even; apply rank_along).
  assert (N1 : nth a (shp x1) 0 = n) by (unfold x1; rewrite shp_ext_even; unfold gather; cbn [map upds]; rewrite nth_updn_eq by exact Ha; reflexivity).
  assert (EA : A = bw_approx M m a J1 x1 /\ b = true /\ D = map PT (tl (bw_coeffs M m a J1 x1))).
  { unfold bw_coeffs in Ec |- *. injection Ec as Q1 Q2 Q3. auto. }
  destruct EA as (EA & -> & ->). destruct (bw_approx_facts M m a J1 x1 W1 ltac:(lia)) as (F1 & F2 & F3 & F4). rewrite <- EA, ?R1, ?N1 in F1, F2, F3, F4. assert (Tg : ttag x1 = ttag x) by reflexivity. rewrite Tg in F3.
  destruct (mat1_outcome LA HD HR w L method m HLA B HI (Some l2) axis A oy _ F1 E2) as (Hd' & Hax' & He' & lev & Hlev & ->). apply lev1_some in Hlev as [-> P2].
  rewrite R1 in F2. rewrite F2, F3 in *. fold a in He' |- *. fold M.
  destruct (mw_call_ok LA w method m L (ttag x) (bank_mats LA HD HR (ttag x) w L method HLA B HI) (ob_two _ _ _ _ _ B) (ob_len_lo _ _ _ _ _ B) (bank_rl w L B) (fun n => boundary_s_transpose LA (ttag x) w n L method B) (mkMW w (Some (l1 + l2)%Z) axis method odd None [] [] false []) x axis odd (l1 + l2)%Z) as (o3 & E & _); auto.
  - apply translate_mode.
  - left. reflexivity.
  - cbn [mw_level]. apply lev1_some_ok. lia.
  - rewrite E. cbn [snd]. fold a n x1 M. rewrite Z2Nat.inj_add by lia. rewrite bw_levels_add. fold J1. rewrite <- N1, <- F4. destruct (nth a (shp A) 0 <? L) eqn:Es.
    + f_equal. destruct (Z.to_nat l2) as [|l] eqn:El; [lia|]. cbn [bw_levels]. rewrite Es, Nat.add_0_r. symmetry. exact Ec.
    + cbn [pc_items]. assert (Hp : 0 < bw_levels (Z.to_nat l2) L (nth a (shp A) 0)) by (destruct (Z.to_nat l2) as [|l] eqn:El; [lia|]; cbn [bw_levels]; rewrite Es; lia).
      rewrite bw_levels_up by lia. rewrite bw_coeffs_ext by (try exact Hp; try exact F1; lia). rewrite bw_coeffs_add, map_app, <- EA. reflexivity.
Qed.
(** The corner: an approximation one sample shorter than the filters ends the long analysis, but a second call extends
    it by one sample and computes a further level. *)
Theorem C71_matrix_1d_corner l1 l2 axis o1 o2 o x ox oy A b D c2 : wf x ->
  new_mwavedec w (Some l1) (AxInt axis) method odd = Ok o1 -> new_mwavedec w (Some l2) (AxInt axis) method odd = Ok o2 ->
  new_mwavedec w (Some (l1 + l2)%Z) (AxInt axis) method odd = Ok o ->
  mw_call LA o1 x = (ox, Ok (mkPC b (PT A :: D))) -> mw_call LA o2 A = (oy, Ok c2) ->
  nth (norm_axis (rank x) axis) (shp A) 0 = L - 1 ->
  snd (mw_call LA o x) = Ok (mkPC b (PT A :: D)) /\ 2 <= List.length (pc_items c2).
Proof using All.
  intros Wx Ho1 Ho2 Ho E1 E2 Hs. pose proof (C71_matrix_1d l1 l2 axis o1 o2 o x ox oy A b D c2 Wx Ho1 Ho2 Ho E1 E2) as Q. rewrite Hs in Q. pose proof (ob_two _ _ _ _ _ B) as HL. pose proof (ob_even _ _ _ _ _ B) as Hev.
  replace (L - 1 <? L) with true in Q by (symmetry; apply Nat.ltb_lt; lia). split; [exact Q|].
  apply new_mw_inv in Ho1 as ->. apply new_mw_inv in Ho2 as ->.
  destruct (mat1_outcome LA HD HR w L method m HLA B HI (Some l1) axis x ox _ Wx E1) as (Hd & Hax & He & lev & Hlev & Ec). 
  set (a := norm_axis (rank x) axis) in *. assert (Ha : a < rank x) by (apply norm_axis_lt; exact Hax).
  assert (EA : A = bw_approx (Bm LA w method (ttag x)) m a (bw_levels (Z.to_nat lev) L (even_up (nth a (shp x) 0))) (ext_even m [a] x)) by (unfold bw_coeffs in Ec; injection Ec as Q1 Q2 Q3; auto).
  destruct (bw_approx_facts (Bm LA w method (ttag x)) m a (bw_levels (Z.to_nat lev) L (even_up (nth a (shp x) 0))) (ext_even m [a] x) (wf_make _ _ _)) as (F1 & F2 & F3 & F4); [unfold ext_even; rewrite rank_along; exact Ha|]. rewrite <- EA in F1, F2, F3, F4.
  assert (F2' : rank A = rank x) by (rewrite F2; unfold ext_even; apply rank_along).
  destruct (mat1_outcome LA HD HR w L method m HLA B HI (Some l2) axis A oy _ F1 E2) as (Hd' & Hax' & He' & lev' & Hlev' & ->). apply lev1_some in Hlev' as [-> P2]. rewrite F2' in *. fold a. rewrite Hs.
  cbn [pc_items bw_coeffs map List.length]. rewrite !map_length, rev_length, seq_length. destruct (Z.to_nat l2) as [|l] eqn:El; [lia|]. cbn [bw_levels].
  replace (even_up (L - 1)) with L; [|unfold even_up; lia]. rewrite Nat.ltb_irrefl. lia.
Qed.
End PN.
