(** C69: away from the borders the boundary-wavelet transforms are the plain filter bank. *)
From Coq Require Import List Arith ZArith Lia Bool String Ring.
From Coq Require Import ZifyNat ZifyBool.
From Verif Require Import Base Sums Tensor TensorFacts Util Perm Plumb Accept Spec Conv1 Conv2 Conv3 PadFacts CoreFacts AnalysisInv Synthesis Filters Wave1 Wave1Inv Spec2 WaveN Sep SpecSep Lin Unified Sparse SparseFacts SpecMat SpecMatN SparseMM LinAlg PropsSparse PropsOrth GramSchmidt Mat1 MatN MatOrth Boundary Boundary2 MatPre Mat1Facts Mat1Call PropsMat1 MatNFacts MatNLoop MatNSep MatNNon MatNCall PropsMatN PropsMatN2 PropsMatNon Surj PropsSurj LocalM LocalBW.
Import ListNotations.
Ltac Zify.zify_post_hook ::= Z.div_mod_to_equations.
Local Arguments Nat.div : simpl never.
Local Arguments Nat.modulo : simpl never.

Section PL.
Context {K : CRing}.
Add Ring Kring : (cr_th K).
Local Open Scope K_scope.
Local Open Scope nat_scope.
Implicit Types x y z : tensor K.
Implicit Types w : wavelet K.

(** ** The level-j entry of a container [cA_J; d_J; ...; d_1], 1 <= j <= J *)
Definition levels_in (c : pycoeffs K) : nat := List.length (pc_items c) - 1.
Definition entry (c : pycoeffs K) (j : nat) : pyval K := nth (List.length (pc_items c) - j) (pc_items c) POther.
Definition coarsest (c : pycoeffs K) : pyval K := nth 0 (pc_items c) POther.

Variable LA : linalg K.
Hypothesis HD : domain K.
Hypothesis HR : formally_real K.

(** *** the rows of the matrices *)
Lemma tprod_rows g w L method (A : nat -> smat K) dim : la_ok LA method -> orthogonal_bank L (dec_lo w) (dec_hi w) (rec_lo w) (rec_hi w) -> boundary_independent L (dec_lo w) (dec_hi w) ->
  (forall k, L <= k -> k mod 2 = 0 -> construct_boundary_a LA g w k method = Ok (A k)) -> rows_ok (tprod (fun k => mget (A k))) L dim (dec_lo w) (dec_hi w).
Proof using HD HR.
  intros HLA B HI HA k s ks js Hk Hs Hok Hc Hj. rewrite <- Hs in Hk. clear Hs. revert k ks js Hk Hc Hj. pose proof (ob_two _ _ _ _ _ B) as HL2. induction Hok as [|n s [Hn Hn2] Hok IH]; intros [|d k] ks js Hk Hc Hj; try discriminate.
  - inversion Hc; subst. inversion Hj; subst. reflexivity.
  - inversion Hc as [|k0 ? ks' ? Hk0 Hc']; subst. inversion Hj as [|j0 ? js' ? Hj0 Hj']; subst. cbn [band_rows tprod row_prod bank_of map].
    destruct (C39_boundary_matrices LA HD g w n L method HR HLA B HI Hn Hn2) as (A' & S & E & _ & _ & _ & _ & _ & _ & _ & _ & _ & R).
    assert (E' : A' = A n) by (rewrite (HA n Hn Hn2) in E; injection E; auto). subst A'.
    assert (Ev : L mod 2 = 0) by apply (ob_even _ _ _ _ _ B). destruct (R k0 j0 ltac:(lia) Hj0 ltac:(unfold complete_row; lia)) as [R1 R2].
    rewrite (IH k ks' js') by (auto; cbn in Hk; lia). f_equal. destruct d; [rewrite R2|rewrite R1]; reflexivity.
Qed.
Lemma image_rows g w L method (A : nat -> nat -> smat K) : la_ok LA method -> orthogonal_bank L (dec_lo w) (dec_hi w) (rec_lo w) (rec_hi w) -> boundary_independent L (dec_lo w) (dec_hi w) ->
  (forall h v, L <= h -> L <= v -> h mod 2 = 0 -> v mod 2 = 0 -> construct_boundary_a2 LA g w h v method = Ok (A h v)) -> rows_ok (image_matrix (fun h v => mget (A h v))) L 2 (dec_lo w) (dec_hi w).
Proof using HD HR.
  intros HLA B HI HA k s ks js Hk Hs Hok Hc Hj. destruct s as [|h [|v [|]]]; try discriminate. destruct k as [|d1 [|d2 [|]]]; try discriminate.
  inversion Hok as [|? ? [H1 E1] Hok1]; subst. inversion Hok1 as [|? ? [H2 E2] _]; subst. inversion Hc as [|k1 ? ks1 ? C1 Hc1]; subst. inversion Hc1 as [|k2 ? ks2 ? C2 Hc2]; subst. inversion Hc2; subst.
  inversion Hj as [|j1 ? js1 ? J1 Hj1]; subst. inversion Hj1 as [|j2 ? js2 ? J2 Hj2]; subst. inversion Hj2; subst.
  assert (Ev : L mod 2 = 0) by apply (ob_even _ _ _ _ _ B). pose proof (ob_two _ _ _ _ _ B) as HL2.
  destruct (C39_boundary_matrices_2d LA HD HR w L method HLA B HI g h v H1 H2 E1 E2) as (A' & S & E & _ & _ & _ & _ & _ & _ & _ & _ & _ & R).
  assert (E' : A' = A h v) by (rewrite (HA h v H1 H2 E1 E2) in E; injection E; auto). subst A'.
  specialize (R d1 d2 k1 k2 j1 j2 ltac:(lia) ltac:(lia) J1 J2 ltac:(unfold complete_row; lia) ltac:(unfold complete_row; lia)).
  cbn [band_rows image_matrix row_prod bank_of map]. unfold half_row in R. rewrite R. unfold shifted, filter_of. ring.
Qed.

(** *** the containers, in terms of bands *)
Section Bank.
Variables (w : wavelet K) (L : nat).
Hypothesis B : orthogonal_bank L (dec_lo w) (dec_hi w) (rec_lo w) (rec_hi w).
Hypothesis HI : boundary_independent L (dec_lo w) (dec_hi w).
Let lo := dec_lo w.
Let hi := dec_hi w.
Lemma bank_facts : 2 <= L /\ L mod 2 = 0 /\ List.length lo = L /\ List.length hi = L.
Proof using B. split; [apply (ob_two _ _ _ _ _ B)|]. split; [apply (ob_even _ _ _ _ _ B)|]. split; [apply (ob_len_lo _ _ _ _ _ B)|apply (ob_len_hi _ _ _ _ _ B)]. Qed.
Lemma iter_bw A m a x j : (a < rank x)%nat -> wf x -> Nat.iter (S j) (bw_lo A m a) (ext_even m [a] x) = bwn_approx (tprod A) m [a] (S j) x.
Proof using.
  intros Ha Hw. induction j as [|j IH].
  - change (bw_lo A m a (ext_even m [a] x) = bwn_band (tprod A) m [a] [false] x). rewrite bw_band1 by exact Ha.
    assert (E : ext_even m [a] (ext_even m [a] x) = ext_even m [a] x).
    { apply ext_even_id; [apply wf_make|unfold ext_even; rewrite rank_along; apply good_axes1, Ha|]. rewrite shp_ext_even. cbn [gather map upds]. rewrite nth_updn_eq by exact Ha. constructor; [apply even_up_even|constructor]. }
    unfold bw_lo, bw_size. rewrite E. rewrite shp_ext_even. cbn [gather map upds]. rewrite nth_updn_eq by exact Ha. rewrite (even_up_id (even_up _)) by apply even_up_even. reflexivity.
  - change (bw_lo A m a (Nat.iter (S j) (bw_lo A m a) (ext_even m [a] x)) = bwn_band (tprod A) m [a] [false] (bwn_approx (tprod A) m [a] (S j) x)). rewrite IH. symmetry. apply (bw_band1 A m a false). rewrite bapprox_rank. exact Ha.
Qed.

Definition lay1 (f : list bool -> tensor K) : pyval K := PT (f [true]).
Definition lay2 (sep : bool) (f : list bool -> tensor K) : pyval K := PTup (if sep then [f bLH; f bHL; f bHH] else [f bHL; f bLH; f bHH]).
Definition lay3 (bs : list (list bool)) (f : list bool -> tensor K) : pyval K := PDict (map (fun k => (band_key k, f k)) bs).
Definition held (o : nat) (nax : list nat) x (lay : (list bool -> tensor K) -> pyval K) (c : pycoeffs K) : Prop :=
  good_axes (rank x) nax /\ exists ap dt, bank_like L o lo hi nax x ap dt /\ (forall j, 1 <= j <= levels_in c -> entry c j = lay (dt j)) /\ (1 <= levels_in c -> coarsest c = PT (ap (levels_in c))).
Lemma entry0 fl (a : pyval K) (f : nat -> pyval K) J : levels_in (mkPC fl (a :: map f (rev (seq 0 J)))) = J /\ (forall j, 1 <= j <= J -> entry (mkPC fl (a :: map f (rev (seq 0 J)))) j = f (j - 1)).
Proof using.
  assert (E : levels_in (mkPC fl (a :: map f (rev (seq 0 J)))) = J) by (unfold levels_in; cbn [pc_items List.length]; rewrite map_length, rev_length, seq_length; lia).
  split; [exact E|]. intros j Hj. unfold entry. cbn [pc_items List.length]. rewrite map_length, rev_length, seq_length. replace (S J - j) with (S (J - j)) by lia. cbn [nth].
  rewrite (nth_indep _ POther (f 0)) by (rewrite map_length, rev_length, seq_length; lia). rewrite (map_nth f). f_equal. rewrite rev_nth by (rewrite seq_length; lia). rewrite seq_length, seq_nth by lia. lia.
Qed.
Lemma entry1 fl (a : pyval K) (f : nat -> pyval K) J : levels_in (mkPC fl (a :: map f (rev (seq 1 J)))) = J /\ (forall j, 1 <= j <= J -> entry (mkPC fl (a :: map f (rev (seq 1 J)))) j = f j).
Proof using.
  destruct (entry0 fl a (fun j => f (S j)) J) as [E1 E2]. rewrite <- seq_shift, <- map_rev, map_map. split; [exact E1|]. intros j Hj. rewrite E2 by exact Hj. f_equal. lia.
Qed.
Lemma held_matches o o' d nax x lay c nax' (x' : tensor K) lay' c' : 1 <= o < L -> 1 <= o' < L -> o = o' + d -> List.length nax' = List.length nax ->
  held o nax x lay c -> held o' nax' x' lay' c' ->
  (forall j, 1 <= j <= levels_in c -> j <= levels_in c' -> exists f f', entry c j = lay f /\ entry c' j = lay' f' /\ forall k, List.length k = List.length nax -> matches L o o' d j nax x (f k) nax' x' (f' k)) /\
  (1 <= levels_in c -> levels_in c' = levels_in c -> exists t t', coarsest c = PT t /\ coarsest c' = PT t' /\ matches L o o' d (levels_in c) nax x t nax' x' t').
Proof using B.
  intros Ho Ho' Hd Hn (Hg & ap & dt & Hb & E1 & E2) (Hg' & ap' & dt' & Hb' & E1' & E2'). destruct bank_facts as (F1 & F2 & F3 & F4).
  destruct (bank_matches L o o' d lo hi nax x ap dt nax' x' ap' dt' F1 Ho Ho' Hd F3 F4 Hg Hg' Hn Hb Hb') as [M1 M2]. split.
  - intros j Hj Hj'. exists (dt j), (dt' j). split; [apply E1; exact Hj|]. split; [apply E1'; lia|]. intros k Hk. apply M2; [lia|exact Hk].
  - intros H1 H2. exists (ap (levels_in c)), (ap' (levels_in c')). split; [apply E2; exact H1|]. split; [apply E2'; lia|]. rewrite H2. apply M1.
Qed.
Lemma held_1d method m level axis o x o' c : la_ok LA method -> wf x -> new_mwavedec w level (AxInt axis) method (Some (mode_name m)) = Ok o -> mw_call LA o x = (o', Ok c) ->
  held (L / 2) [norm_axis (rank x) axis] x lay1 c.
Proof using HD HR B HI.
  intros HLA Hw Ho Hc. destruct (C40_coefficients LA HD HR w L method m HLA B HI level axis o x o' c Hw Ho Hc) as (lev & A & _ & HA & ->).
  apply new_mw_inv in Ho. subst o. destruct (mw_call_inv LA (mkMW w level axis method (Some (mode_name m)) None [] [] false []) o' x m _ Hw eq_refl Hc) as (_ & Hax & _). cbn [mw_axis] in Hax.
  pose proof (norm_axis_lt _ _ Hax) as Ha. set (a := norm_axis (rank x) axis) in *. destruct bank_facts as (F1 & F2 & F3 & F4). set (J := bw_levels _ _ _). set (T := tprod (fun k => mget (A k))).
  assert (HT : rows_ok T L (List.length [a]) lo hi) by (apply (tprod_rows (ttag x) w L method A); auto; intros k K1 K2; apply HA; assumption).
  split; [apply good_axes1, Ha|]. exists (fun j => bwn_approx T m [a] j x), (fun j k => bwn_band T m [a] k (bwn_approx T m [a] (j - 1) x)).
  split; [apply boundary_bank; auto; apply good_axes1, Ha|]. unfold bw_coeffs. cbn [map]. rewrite map_map.
  destruct (entry0 true (PT (bw_approx (fun k => mget (A k)) m a J (ext_even m [a] x))) (fun j => PT (bw_hi (fun k => mget (A k)) m a (bw_approx (fun k => mget (A k)) m a j (ext_even m [a] x)))) J) as [E1 E2].
  rewrite E1. split.
  - intros j Hj. rewrite E2 by exact Hj. unfold lay1. f_equal. destruct j as [|[|j]]; [lia| |].
    + change (bw_hi (fun k => mget (A k)) m a (ext_even m [a] x) = bwn_band T m [a] [true] x). unfold T. rewrite bw_band1 by exact Ha.
      assert (E : ext_even m [a] (ext_even m [a] x) = ext_even m [a] x).
      { apply ext_even_id; [apply wf_make|unfold ext_even; rewrite rank_along; apply good_axes1, Ha|]. rewrite shp_ext_even. cbn [gather map upds]. rewrite nth_updn_eq by exact Ha. constructor; [apply even_up_even|constructor]. }
      unfold bw_hi, bw_size. rewrite E. rewrite shp_ext_even. cbn [gather map upds]. rewrite nth_updn_eq by exact Ha. rewrite (even_up_id (even_up _)) by apply even_up_even. reflexivity.
    + replace (S (S j) - 1) with (S j) by lia. unfold bw_approx. rewrite iter_bw by auto. symmetry. apply (bw_band1 (fun k => mget (A k)) m a true). rewrite bapprox_rank. exact Ha.
  - intros HJ. unfold coarsest. cbn [pc_items nth]. f_equal. destruct J as [|J']; [lia|]. apply iter_bw; auto.
Qed.
Lemma held_2d sep method m level axes o x o' c : la_ok LA method -> wf x -> new_mwavedecn 2 w level (AxSeq axes) method (Some (mode_name m)) sep = Ok o -> mw2_call LA o x = (o', Ok c) ->
  List.length axes = 2 /\ held (L / 2) (map (norm_axis (rank x)) axes) x (lay2 sep) c.
Proof using HD HR B HI.
  intros HLA Hw Ho Hc. destruct bank_facts as (F1 & F2 & F3 & F4). set (nax := map (norm_axis (rank x)) axes).
  assert (Hex : exists T J, rows_ok T L 2 lo hi /\ c = bwn2_coeffs T m nax (if sep then [bLH; bHL; bHH] else [bHL; bLH; bHH]) J x).
  { destruct sep.
    - destruct (C43_coefficients LA HD HR w L method m HLA B HI level axes o x o' c Hw Ho Hc) as (lev & A & _ & HA & E). do 2 eexists. split; [|exact E].
      apply (tprod_rows (ttag x) w L method A); auto; intros k K1 K2; apply HA; assumption.
    - destruct (C43_nonseparable_coefficients LA HD HR w L method HLA B HI m level axes o x o' c Hw Ho Hc) as (lev & A & _ & HA & E). do 2 eexists. split; [|exact E].
      apply (image_rows (ttag x) w L method A); auto; intros h v K1 K2 K3 K4; apply HA; assumption. }
  apply new_mwn_inv in Ho as [Hl ->]. destruct (mw2_call_inv LA (mkMWN w level axes method (Some (mode_name m)) sep None [] [] false []) o' axes x c Hw eq_refl Hl Hc) as (_ & Hax & _).
  split; [exact Hl|]. assert (Hg : good_axes (rank x) nax) by (apply good_axes_ok, Hax). assert (Hn : List.length nax = 2) by (unfold nax; rewrite map_length; exact Hl).
  destruct Hex as (T & J & HT & ->). split; [exact Hg|]. exists (fun j => bwn_approx T m nax j x), (fun j k => bwn_band T m nax k (bwn_approx T m nax (j - 1) x)).
  split; [apply boundary_bank; auto; rewrite Hn; exact HT|]. unfold bwn2_coeffs.
  destruct (entry0 false (PT (bwn_approx T m nax J x)) (fun j => PTup (map (fun k => bwn_band T m nax k (bwn_approx T m nax j x)) (if sep then [bLH; bHL; bHH] else [bHL; bLH; bHH]))) J) as [E1 E2].
  rewrite E1. split; [|reflexivity]. intros j Hj. rewrite E2 by exact Hj. unfold lay2. f_equal. destruct sep; reflexivity.
Qed.
Lemma held_3d method m level axes o x o' c : la_ok LA method -> wf x -> new_mwavedecn 3 w level (AxSeq axes) method (Some (mode_name m)) true = Ok o -> mw3_call LA o x = (o', Ok c) ->
  List.length axes = 3 /\ held (L / 2) (map (norm_axis (rank x)) axes) x (lay3 bands3) c.
Proof using HD HR B HI.
  intros HLA Hw Ho Hc. destruct bank_facts as (F1 & F2 & F3 & F4). set (nax := map (norm_axis (rank x)) axes).
  destruct (C45_coefficients LA HD HR w L method m HLA B HI level axes o x o' c Hw Ho Hc) as (lev & A & _ & HA & E).
  apply new_mwn_inv in Ho as [Hl ->]. destruct (mw3_call_inv LA (mkMWN w level axes method (Some (mode_name m)) true None [] [] false []) o' axes x c Hw eq_refl Hl Hc) as (_ & Hax & _). subst c.
  split; [exact Hl|]. assert (Hg : good_axes (rank x) nax) by (apply good_axes_ok, Hax). assert (Hn : List.length nax = 3) by (unfold nax; rewrite map_length; exact Hl).
  set (T := tprod (fun k => mget (A k))). assert (HT : rows_ok T L (List.length nax) lo hi) by (apply (tprod_rows (ttag x) w L method A); auto; intros k K1 K2; apply HA; assumption).
  split; [exact Hg|]. exists (fun j => bwn_approx T m nax j x), (fun j k => bwn_band T m nax k (bwn_approx T m nax (j - 1) x)).
  split; [apply boundary_bank; auto|]. unfold bwn3_coeffs. fold nax. fold T. set (J := bwn_levels _ _ _).
  destruct (entry0 false (PT (bwn_approx T m nax J x)) (fun j => PDict (map (fun k => (band_key k, bwn_band T m nax k (bwn_approx T m nax j x))) bands3)) J) as [E1 E2].
  rewrite E1. split; [|reflexivity]. intros j Hj. rewrite E2 by exact Hj. reflexivity.
Qed.
(** *** the padded transforms *)
Definition bands3' : list (list bool) := [[false; false; true]; [false; true; false]; [false; true; true]; [true; false; false]; [true; false; true]; [true; true; false]; [true; true; true]].
Lemma held_padded T lay m level x c : wf x -> analyse T x w (Some (mode_name m)) level = Ok c -> isfs T = false -> 1 <= levels_in c ->
  (forall nax j y, tdetails T lo hi m nax j y = lay (fun k => detail lo (bank_of lo hi k) m nax j y)) ->
  exists axes, hint_axes (thint T) (tdim T) = Some axes /\ List.length axes = tdim T /\ held 1 (map (norm_axis (rank x)) axes) x lay c.
Proof using B.
  intros Hw Hc Hf H1 Hlay. destruct bank_facts as (F1 & F2 & F3 & F4). assert (He : Nat.even L = true) by (apply Nat.even_spec; exists (L / 2); lia).
  edestruct (analyse_inv T x w m L level) with (8 := Hc) as (_ & axes & Hh & Hla & Hax & HJ); try eassumption.
  { intros _. left. unfold levels_in in H1. lia. } { rewrite Hf. discriminate. }
  exists axes. split; [exact Hh|]. split; [exact Hla|]. set (nax := map (norm_axis (rank x)) axes) in *. cbv zeta in HJ. destruct HJ as (_ & _ & _ & E). set (J := num_levels level L (gather nax 0 (shp x))) in *.
  assert (Hg : good_axes (rank x) nax) by (apply good_axes_ok, Hax). split; [exact Hg|].
  exists (fun j => approx lo m nax j x), (fun j k => detail lo (bank_of lo hi k) m nax j x). split; [apply padded_bank; auto|].
  subst c. unfold tspec. set (fl := match T with Twavedec _ => true | _ => false end). fold lo hi.
  destruct (entry1 fl (PT (approx lo m nax J x)) (fun j => tdetails T lo hi m nax j x) J) as [E1 E2]. rewrite E1. split; [|reflexivity]. intros j Hj. rewrite E2 by exact Hj. apply Hlay.
Qed.
Lemma half_range : 1 <= L / 2 < L /\ L / 2 = L / 2 + 0 /\ L / 2 = 1 + (L / 2 - 1).
Proof using B. destruct bank_facts as (F1 & F2 & _). lia. Qed.

(** ** C69: two boundary-wavelet transforms agree wherever their inputs do, away from the borders: whatever the sizes, the
    padding modes, the orthogonalisation methods and the values elsewhere; and they move with the signal. *)
Theorem C69_boundary_1d method method' m m' level level' axis axis' o o1 x c o' o1' (x' : tensor K) c' : la_ok LA method -> la_ok LA method' -> wf x -> wf x' ->
  new_mwavedec w level (AxInt axis) method (Some (mode_name m)) = Ok o -> mw_call LA o x = (o1, Ok c) ->
  new_mwavedec w level' (AxInt axis') method' (Some (mode_name m')) = Ok o' -> mw_call LA o' x' = (o1', Ok c') ->
  let a := norm_axis (rank x) axis in let a' := norm_axis (rank x') axis' in
  (forall j, 1 <= j <= levels_in c -> j <= levels_in c' -> exists t t', entry c j = PT t /\ entry c' j = PT t' /\ matches L (L / 2) (L / 2) 0 j [a] x t [a'] x' t') /\
  (1 <= levels_in c -> levels_in c' = levels_in c -> exists t t', coarsest c = PT t /\ coarsest c' = PT t' /\ matches L (L / 2) (L / 2) 0 (levels_in c) [a] x t [a'] x' t').
Proof using HD HR B HI.
  intros HLA HLA' Hw Hw' Ho Hc Ho' Hc' a a'. destruct half_range as (R1 & R2 & _).
  destruct (held_matches (L / 2) (L / 2) 0 [a] x lay1 c [a'] x' lay1 c' R1 R1 R2 eq_refl (held_1d method m level axis o x o1 c HLA Hw Ho Hc) (held_1d method' m' level' axis' o' x' o1' c' HLA' Hw' Ho' Hc')) as [H1 H2].
  split; [|exact H2]. intros j Hj Hj'. destruct (H1 j Hj Hj') as (f & f' & E & E' & Hm). exists (f [true]), (f' [true]). split; [exact E|]. split; [exact E'|]. apply Hm. reflexivity.
Qed.
(** MatrixWavedec2, both settings: df, ds, db are the details along the first, the second and both axes *)
Theorem C69_boundary_2d sep sep' method method' m m' level level' axes axes' o o1 x c o' o1' (x' : tensor K) c' : la_ok LA method -> la_ok LA method' -> wf x -> wf x' ->
  new_mwavedecn 2 w level (AxSeq axes) method (Some (mode_name m)) sep = Ok o -> mw2_call LA o x = (o1, Ok c) ->
  new_mwavedecn 2 w level' (AxSeq axes') method' (Some (mode_name m')) sep' = Ok o' -> mw2_call LA o' x' = (o1', Ok c') ->
  let nax := map (norm_axis (rank x)) axes in let nax' := map (norm_axis (rank x')) axes' in
  (forall j, 1 <= j <= levels_in c -> j <= levels_in c' -> exists df ds db df' ds' db',
     entry c j = PTup (if sep then [ds; df; db] else [df; ds; db]) /\ entry c' j = PTup (if sep' then [ds'; df'; db'] else [df'; ds'; db']) /\
     Forall2 (fun t t' => matches L (L / 2) (L / 2) 0 j nax x t nax' x' t') [df; ds; db] [df'; ds'; db']) /\
  (1 <= levels_in c -> levels_in c' = levels_in c -> exists t t', coarsest c = PT t /\ coarsest c' = PT t' /\ matches L (L / 2) (L / 2) 0 (levels_in c) nax x t nax' x' t').
Proof using HD HR B HI.
  intros HLA HLA' Hw Hw' Ho Hc Ho' Hc' nax nax'. destruct half_range as (R1 & R2 & _).
  destruct (held_2d sep method m level axes o x o1 c HLA Hw Ho Hc) as [Hl Hh]. destruct (held_2d sep' method' m' level' axes' o' x' o1' c' HLA' Hw' Ho' Hc') as [Hl' Hh'].
  assert (Hn : List.length nax' = List.length nax) by (unfold nax, nax'; rewrite !map_length; congruence). assert (Hn2 : List.length nax = 2) by (unfold nax; rewrite map_length; exact Hl).
  destruct (held_matches (L / 2) (L / 2) 0 nax x (lay2 sep) c nax' x' (lay2 sep') c' R1 R1 R2 Hn Hh Hh') as [H1 H2].
  split; [|exact H2]. intros j Hj Hj'. destruct (H1 j Hj Hj') as (f & f' & E & E' & Hm). exists (f bHL), (f bLH), (f bHH), (f' bHL), (f' bLH), (f' bHH).
  split; [rewrite E; reflexivity|]. split; [rewrite E'; reflexivity|]. repeat apply Forall2_cons; try apply Forall2_nil; apply Hm; rewrite Hn2; reflexivity.
Qed.
Theorem C69_boundary_3d method method' m m' level level' axes axes' o o1 x c o' o1' (x' : tensor K) c' : la_ok LA method -> la_ok LA method' -> wf x -> wf x' ->
  new_mwavedecn 3 w level (AxSeq axes) method (Some (mode_name m)) true = Ok o -> mw3_call LA o x = (o1, Ok c) ->
  new_mwavedecn 3 w level' (AxSeq axes') method' (Some (mode_name m')) true = Ok o' -> mw3_call LA o' x' = (o1', Ok c') ->
  let nax := map (norm_axis (rank x)) axes in let nax' := map (norm_axis (rank x')) axes' in
  (forall j, 1 <= j <= levels_in c -> j <= levels_in c' -> exists d d', entry c j = PDict d /\ entry c' j = PDict d' /\ map fst d = map fst d' /\ List.length d = 7 /\
     forall key t t', In (key, t) d -> In (key, t') d' -> matches L (L / 2) (L / 2) 0 j nax x t nax' x' t') /\
  (1 <= levels_in c -> levels_in c' = levels_in c -> exists t t', coarsest c = PT t /\ coarsest c' = PT t' /\ matches L (L / 2) (L / 2) 0 (levels_in c) nax x t nax' x' t').
Proof using HD HR B HI.
  intros HLA HLA' Hw Hw' Ho Hc Ho' Hc' nax nax'. destruct half_range as (R1 & R2 & _).
  destruct (held_3d method m level axes o x o1 c HLA Hw Ho Hc) as [Hl Hh]. destruct (held_3d method' m' level' axes' o' x' o1' c' HLA' Hw' Ho' Hc') as [Hl' Hh'].
  assert (Hn : List.length nax' = List.length nax) by (unfold nax, nax'; rewrite !map_length; congruence). assert (Hn2 : List.length nax = 3) by (unfold nax; rewrite map_length; exact Hl).
  destruct (held_matches (L / 2) (L / 2) 0 nax x (lay3 bands3) c nax' x' (lay3 bands3) c' R1 R1 R2 Hn Hh Hh') as [H1 H2].
  split; [|exact H2]. intros j Hj Hj'. destruct (H1 j Hj Hj') as (f & f' & E & E' & Hm). do 2 eexists. split; [exact E|]. split; [exact E'|]. split; [reflexivity|]. split; [reflexivity|].
  intros key t t' Ht Ht'. apply in_map_iff in Ht as (k & Ek & Hk). apply in_map_iff in Ht' as (k' & Ek' & Hk'). injection Ek as <- <-. injection Ek' as Ek' <-.
  assert (k = k' /\ List.length k = 3) as [<- Hk3].
  { clear - Hk Hk' Ek'. unfold bands3 in *. cbn [In] in *. repeat destruct Hk as [<-|Hk]; try destruct Hk; repeat destruct Hk' as [<-|Hk']; try destruct Hk'; cbn in Ek'; try discriminate; split; reflexivity. }
  apply Hm. congruence.
Qed.

(** ** ... and they agree with the padded transforms: coefficient k of a boundary-wavelet transform is the coefficient
    k + L/2 - 1 of wavedec on the signal delayed by L/2 - 1 samples *)
Theorem C69_padded_1d method m m' level level' axis axis' o o1 x c (x' : tensor K) c' : la_ok LA method -> wf x -> wf x' ->
  new_mwavedec w level (AxInt axis) method (Some (mode_name m)) = Ok o -> mw_call LA o x = (o1, Ok c) ->
  wavedec x' w (Some (mode_name m')) level' axis' = Ok c' ->
  let a := norm_axis (rank x) axis in let a' := norm_axis (rank x') axis' in
  (forall j, 1 <= j <= levels_in c -> j <= levels_in c' -> exists t t', entry c j = PT t /\ entry c' j = PT t' /\ matches L (L / 2) 1 (L / 2 - 1) j [a] x t [a'] x' t') /\
  (1 <= levels_in c -> levels_in c' = levels_in c -> exists t t', coarsest c = PT t /\ coarsest c' = PT t' /\ matches L (L / 2) 1 (L / 2 - 1) (levels_in c) [a] x t [a'] x' t').
Proof using HD HR B HI.
  intros HLA Hw Hw' Ho Hc Hc' a a'. destruct half_range as (R1 & R2 & R3). destruct bank_facts as (F1 & F2 & F3 & F4).
  assert (HP : 1 <= levels_in c' -> held 1 [a'] x' lay1 c').
  { intros H1. destruct (held_padded (Twavedec axis') lay1 m' level' x' c' Hw' Hc' eq_refl H1 ltac:(reflexivity)) as (axes & Hh & _ & Hp). cbn in Hh. injection Hh as <-. exact Hp. }
  pose proof (held_1d method m level axis o x o1 c HLA Hw Ho Hc) as HB.
  assert (HM := fun H => held_matches (L / 2) 1 (L / 2 - 1) [a] x lay1 c [a'] x' lay1 c' R1 ltac:(lia) R3 eq_refl HB (HP H)). split.
  - intros j Hj Hj'. destruct (HM ltac:(lia)) as [H1 _]. destruct (H1 j Hj Hj') as (f & f' & E & E' & Hm). exists (f [true]), (f' [true]). split; [exact E|]. split; [exact E'|]. apply Hm. reflexivity.
  - intros H1 H2. apply (HM ltac:(lia)); assumption.
Qed.
Theorem C69_padded_2d sep method m m' level level' axes axes' o o1 x c (x' : tensor K) c' : la_ok LA method -> wf x -> wf x' ->
  new_mwavedecn 2 w level (AxSeq axes) method (Some (mode_name m)) sep = Ok o -> mw2_call LA o x = (o1, Ok c) ->
  wavedec2 x' w (Some (mode_name m')) level' (AxSeq axes') = Ok c' ->
  let nax := map (norm_axis (rank x)) axes in let nax' := map (norm_axis (rank x')) axes' in
  (forall j, 1 <= j <= levels_in c -> j <= levels_in c' -> exists df ds db df' ds' db',
     entry c j = PTup (if sep then [ds; df; db] else [df; ds; db]) /\ entry c' j = PTup [df'; ds'; db'] /\
     Forall2 (fun t t' => matches L (L / 2) 1 (L / 2 - 1) j nax x t nax' x' t') [df; ds; db] [df'; ds'; db']) /\
  (1 <= levels_in c -> levels_in c' = levels_in c -> exists t t', coarsest c = PT t /\ coarsest c' = PT t' /\ matches L (L / 2) 1 (L / 2 - 1) (levels_in c) nax x t nax' x' t').
Proof using HD HR B HI.
  intros HLA Hw Hw' Ho Hc Hc' nax nax'. destruct half_range as (R1 & R2 & R3). destruct bank_facts as (F1 & F2 & F3 & F4).
  assert (HP : 1 <= levels_in c' -> List.length axes' = 2 /\ held 1 nax' x' (lay2 false) c').
  { intros H1. destruct (held_padded (Twavedec2 (AxSeq axes')) (lay2 false) m' level' x' c' Hw' Hc' eq_refl H1 ltac:(reflexivity)) as (ax & Hh & Hl & Hp). cbn [thint hint_axes tdim] in Hh. destruct (Nat.eqb _ _); [|discriminate]. injection Hh as <-. auto. }
  destruct (held_2d sep method m level axes o x o1 c HLA Hw Ho Hc) as [Hl HB].
  assert (Hn2 : List.length nax = 2) by (unfold nax; rewrite map_length; exact Hl).
  assert (HM : 1 <= levels_in c' -> _) by (intros H; destruct (HP H) as [Hl' Hp]; exact (held_matches (L / 2) 1 (L / 2 - 1) nax x (lay2 sep) c nax' x' (lay2 false) c' R1 ltac:(lia) R3 ltac:(unfold nax, nax'; rewrite !map_length; congruence) HB Hp)). split.
  - intros j Hj Hj'. destruct (HM ltac:(lia)) as [H1 _]. destruct (H1 j Hj Hj') as (f & f' & E & E' & Hm). exists (f bHL), (f bLH), (f bHH), (f' bHL), (f' bLH), (f' bHH).
    split; [rewrite E; reflexivity|]. split; [rewrite E'; reflexivity|]. repeat apply Forall2_cons; try apply Forall2_nil; apply Hm; rewrite Hn2; reflexivity.
  - intros H1 H2. apply (HM ltac:(lia)); assumption.
Qed.
Theorem C69_padded_3d method m m' level level' axes axes' o o1 x c (x' : tensor K) c' : la_ok LA method -> wf x -> wf x' ->
  new_mwavedecn 3 w level (AxSeq axes) method (Some (mode_name m)) true = Ok o -> mw3_call LA o x = (o1, Ok c) ->
  wavedec3 x' w (Some (mode_name m')) level' (AxSeq axes') = Ok c' ->
  let nax := map (norm_axis (rank x)) axes in let nax' := map (norm_axis (rank x')) axes' in
  (forall j, 1 <= j <= levels_in c -> j <= levels_in c' -> exists d d', entry c j = PDict d /\ entry c' j = PDict d' /\ List.length d = 7 /\ List.length d' = 7 /\ (forall key, In key (map fst d) <-> In key (map fst d')) /\
     forall key t t', In (key, t) d -> In (key, t') d' -> matches L (L / 2) 1 (L / 2 - 1) j nax x t nax' x' t') /\
  (1 <= levels_in c -> levels_in c' = levels_in c -> exists t t', coarsest c = PT t /\ coarsest c' = PT t' /\ matches L (L / 2) 1 (L / 2 - 1) (levels_in c) nax x t nax' x' t').
Proof using HD HR B HI.
  intros HLA Hw Hw' Ho Hc Hc' nax nax'. destruct half_range as (R1 & R2 & R3). destruct bank_facts as (F1 & F2 & F3 & F4).
  assert (HP : 1 <= levels_in c' -> List.length axes' = 3 /\ held 1 nax' x' (lay3 bands3') c').
  { intros H1. destruct (held_padded (Twavedec3 (AxSeq axes')) (lay3 bands3') m' level' x' c' Hw' Hc' eq_refl H1 ltac:(reflexivity)) as (ax & Hh & Hl & Hp). cbn [thint hint_axes tdim] in Hh. destruct (Nat.eqb _ _); [|discriminate]. injection Hh as <-. auto. }
  destruct (held_3d method m level axes o x o1 c HLA Hw Ho Hc) as [Hl HB].
  assert (Hn2 : List.length nax = 3) by (unfold nax; rewrite map_length; exact Hl).
  assert (HM : 1 <= levels_in c' -> _) by (intros H; destruct (HP H) as [Hl' Hp]; exact (held_matches (L / 2) 1 (L / 2 - 1) nax x (lay3 bands3) c nax' x' (lay3 bands3') c' R1 ltac:(lia) R3 ltac:(unfold nax, nax'; rewrite !map_length; congruence) HB Hp)). split.
  - intros j Hj Hj'. destruct (HM ltac:(lia)) as [H1 _]. destruct (H1 j Hj Hj') as (f & f' & E & E' & Hm). do 2 eexists. split; [exact E|]. split; [exact E'|]. split; [reflexivity|]. split; [reflexivity|].
    split; [intros key; cbn; intuition|]. intros key t t' Ht Ht'. apply in_map_iff in Ht as (k & Ek & Hk). apply in_map_iff in Ht' as (k' & Ek' & Hk'). injection Ek as <- <-. injection Ek' as Ek' <-.
    assert (k = k' /\ List.length k = 3) as [<- Hk3].
    { clear - Hk Hk' Ek'. unfold bands3, bands3' in *. cbn [In] in *. repeat destruct Hk as [<-|Hk]; try destruct Hk; repeat destruct Hk' as [<-|Hk']; try destruct Hk'; cbn in Ek'; try discriminate; split; reflexivity. }
    apply Hm. congruence.
  - intros H1 H2. apply (HM ltac:(lia)); assumption.
Qed.
(** a single signal x of length n and a signal x' of length n' that contains x, delayed by L/2 - 1 + 2^j s samples *)
Theorem C69_padded_signal method m m' level level' o o1 (n n' : nat) x c (x' : tensor K) c' : la_ok LA method -> wf x -> wf x' -> shp x = [n] -> shp x' = [n'] ->
  new_mwavedec w level (AxInt (-1)) method (Some (mode_name m)) = Ok o -> mw_call LA o x = (o1, Ok c) ->
  wavedec x' w (Some (mode_name m')) level' (-1) = Ok c' ->
  forall j k s, 1 <= j <= levels_in c -> j <= levels_in c' ->
  (2 ^ j - 1) * (L / 2 - 1) <= 2 ^ j * k -> 2 ^ j * k + (2 ^ j - 1) * (L / 2) < n -> 2 ^ j * (k + (L / 2 - 1) + s + 1) <= n' ->
  (forall p, 2 ^ j * k <= p + (2 ^ j - 1) * (L / 2 - 1) -> p <= 2 ^ j * k + (2 ^ j - 1) * (L / 2) -> get x [p] = get x' [p + (L / 2 - 1) + 2 ^ j * s]) ->
  exists t t', entry c j = PT t /\ entry c' j = PT t' /\ get t [k] = get t' [k + (L / 2 - 1) + s].
Proof using HD HR B HI.
  intros HLA Hw Hw' S S' Ho Hc Hc' j k s Hj Hj' A1 A2 A3 Hp. destruct bank_facts as (F1 & F2 & _).
  destruct (C69_padded_1d method m m' level level' (-1) (-1) o o1 x c x' c' HLA Hw Hw' Ho Hc Hc') as [H1 _]. destruct (H1 j Hj Hj') as (t & t' & E & E' & Hm).
  exists t, t'. split; [exact E|]. split; [exact E'|].
  assert (Hr : rank x = 1) by (unfold rank; rewrite S; reflexivity). assert (Hr' : rank x' = 1) by (unfold rank; rewrite S'; reflexivity).
  rewrite Hr, Hr' in Hm. change (norm_axis 1 (-1)) with 0 in Hm. destruct (Hm [k] [s] [0] [0]) as (_ & _ & G).
  - reflexivity.
  - rewrite S. split; [reflexivity|]. intros d Hd Hn. exfalso. apply Hn. cbn in Hd. left. lia.
  - rewrite S'. split; [reflexivity|]. intros d Hd Hn. exfalso. apply Hn. cbn in Hd. left. lia.
  - rewrite S. cbn [gather map nth]. constructor; [replace (L - 1 - L / 2) with (L / 2 - 1) by lia; split; assumption|constructor].
  - rewrite S'. cbn [gather map nth moved map2]. constructor; [|constructor]. assert (HP : 1 <= 2 ^ j) by (clear; induction j; cbn; lia). set (M := 2 ^ j) in *. set (h := L / 2) in *. replace (L - 1 - 1) with (2 * (h - 1)) by lia. split; nia.
  - intros ps Hps. inversion Hps as [|? p ? q [P1 P2] Hq]; subst. inversion Hq; subst. cbn [moved map2 upds updn]. replace (L - 1 - L / 2) with (L / 2 - 1) in P1 by lia. apply Hp; assumption.
  - cbn [moved map2 upds updn] in G. rewrite Nat.mul_1_l in G. exact G.
Qed.
End Bank.
End PL.
