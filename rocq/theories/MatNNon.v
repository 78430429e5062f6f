(** MatrixWavedec2 and MatrixWaverec2 with separable=False: the boundary matrices, one level of the analysis and of the
    synthesis, the loops. *)
From Coq Require Import List Arith ZArith Lia Bool String Ring.
From Coq Require Import ZifyNat ZifyBool.
From Verif Require Import Base Sums Tensor TensorFacts Util Perm Plumb Accept Spec Conv1 Conv2 PadFacts CoreFacts Synthesis Filters Wave1 RecN Sep SepFacts Lin Sparse SparseFacts SparseConv Conv2Stored SpecMat SpecMatN SparseMM LinAlg PropsSparse GramSchmidt Mat1 MatN MatOrth Boundary Boundary2 OrthCong MatPre Mat1Facts MatNFacts MatNLoop MatNSep.
Import ListNotations.
Ltac Zify.zify_post_hook ::= Z.div_mod_to_equations.
Local Arguments Nat.div : simpl never.
Local Arguments Nat.modulo : simpl never.

Section NN.
Context {K : CRing}.
Add Ring Kring : (cr_th K).
Open Scope K_scope.
Implicit Types (t u x : tensor K).

(** ** the boundary matrices *)
Section BM.
Variable LA : linalg K.
Hypothesis HD : domain K.
Hypothesis HR : formally_real K.
Variables (w : wavelet K) (L : nat) (method : string).
Hypothesis HLA : la_ok LA method.
Hypothesis B : bank_ok w L.
Hypothesis HI : boundary_independent L (dec_lo w) (dec_hi w).
Lemma boundary_2_ok g h v : (L <= h)%nat -> (L <= v)%nat -> (h mod 2 = 0)%nat -> (v mod 2 = 0)%nat ->
  exists A S, construct_boundary_a2 LA g w h v method = Ok A /\ construct_boundary_s2 LA g w h v method = Ok S /\
  s_tag A = g /\ s_rows A = (v * h)%nat /\ s_cols A = (v * h)%nat /\ s_wf A /\ orthogonal (v * h) (mget A) /\
  s_tag S = g /\ s_rows S = (v * h)%nat /\ s_cols S = (v * h)%nat /\ s_wf S /\ (forall i j, mget S i j = mget A j i) /\
  (forall i j k l, (i < h)%nat -> (j < v)%nat -> (k < h)%nat -> (l < v)%nat -> ~ trunc2 L h v i j ->
     mget A (rix h v i j) (cix h k l) = rowv (fsel w h i) L (ksel h i) k * rowv (fsel w v j) L (ksel v j) l).
Proof.
  intros Hh Hv Hhe Hve. pose proof (ob_two _ _ _ _ _ B) as H2. pose proof (ob_even _ _ _ _ _ B) as He. pose proof (ob_len_lo _ _ _ _ _ B) as Hlo. pose proof (ob_len_hi _ _ _ _ _ B) as Hhi.
  destruct (raw_2d_ok g (dec_lo w) (dec_hi w) L h v false Hlo Hhi H2 He ltac:(lia) Hv Hhe Hve) as (R & ER & R1 & R2 & R3 & R4 & R5).
  destruct (orthogonalize2_ok LA HD HR w L h v R B HI Hh Hv Hhe Hve R2 R3 R4 (fun i j k l a b c d => proj1 (R5 i j k l a b c d)) (fun i j k l a b c d => proj2 (R5 i j k l a b c d)) method HLA) as (A & EA & A1 & A2 & A3 & A4 & A5 & A6).
  pose proof (orthogonalize_cong LA R (coalesce R) (L * L) method (ceq_coalesce R R4)) as Hc. rewrite EA in Hc.
  destruct (orthogonalize LA (coalesce R) (L * L) method) as [A'|e] eqn:EA'; cbn [req] in Hc; [|contradiction]. destruct Hc as (C1 & C2 & C3 & _ & C5 & C6 & _).
  exists A, (sp_t A'). split; [|split; [|split; [congruence|split; [exact A2|split; [exact A3|split; [exact A4|split; [exact A5|split; [cbn [sp_t s_tag]; congruence|split; [cbn [sp_t s_rows]; congruence|split; [cbn [sp_t s_cols]; congruence|split; [apply wf_t, C5|split; [|exact A6]]]]]]]]]]]].
  - unfold construct_boundary_a2, construct_a_2, get_filter_tensors. rewrite ER. cbn [rbind]. rewrite Hlo. exact EA.
  - unfold construct_boundary_s2, construct_s_2, get_filter_tensors. rewrite (ob_rec_lo _ _ _ _ _ B), (ob_rec_hi _ _ _ _ _ B).
    assert (Hcr : forall l : list K, create_tensor (rev l) true g = create_tensor l false g) by (intros l; unfold create_tensor; rewrite rev_involutive, rev_length; reflexivity).
    rewrite !Hcr, ER. cbn [rbind]. rewrite sp_t_t, rev_length, Hlo, EA'. reflexivity.
  - intros i j. rewrite mget_t. symmetry. apply C6.
Qed.
End BM.

(** ** images as column-major vectors *)
Lemma cat2_narrow t d a k : (d < rank t)%nat -> (a + k <= nth d (shp t) 0)%nat -> cat2 d (narrow t d 0 a) (narrow t d a k) = Ok (narrow t d 0 (a + k)).
Proof.
  intros Hd Hn. unfold cat2. assert (Hr : forall o n, rank (narrow t d o n) = rank t) by (intros; unfold rank; rewrite shp_narrow, updn_length; reflexivity).
  rewrite !Hr, Nat.eqb_refl. destruct (Nat.ltb_spec d (rank t)); [|lia]. rewrite !shp_narrow, !updn_updn, list_eqb_refl. cbn [andb].
  rewrite !nth_updn_eq by exact Hd. f_equal. apply t_ext; [apply wf_make|apply wf_make|reflexivity|reflexivity|].
  intros idx Hv. rewrite shp_make in Hv. rewrite get_make by exact Hv. pose proof (nth_valid_updn _ _ _ _ Hv Hd) as Hi.
  assert (Hla : (d < List.length idx)%nat) by (rewrite (valid_length _ _ Hv), updn_length; exact Hd).
  rewrite (get_narrow t d 0 (a + k)) by exact Hv. rewrite Nat.add_0_r, updn_same.
  destruct (Nat.ltb_spec (nth d idx 0%nat) a) as [Hlt|Hge].
  - rewrite get_narrow by (rewrite <- (updn_same d idx 0%nat); rewrite <- (updn_updn d a (a + k)%nat); apply valid_updn; assumption). rewrite Nat.add_0_r, updn_same. reflexivity.
  - rewrite get_narrow by (rewrite <- (updn_updn d k (a + k)%nat); apply valid_updn; [exact Hv|lia]).
    rewrite nth_updn_eq by exact Hla. rewrite updn_updn. replace (nth d idx 0 - a + a)%nat with (nth d idx 0%nat) by lia. rewrite updn_same. reflexivity.
Qed.
Lemma narrow_all t d n : wf t -> (d < rank t)%nat -> nth d (shp t) 0%nat = n -> narrow t d 0 n = t.
Proof.
  intros Hw Hd <-. apply t_ext; [apply wf_make|exact Hw|reflexivity|rewrite shp_narrow, updn_same; reflexivity|]. intros idx Hv. rewrite shp_narrow in Hv.
  rewrite get_narrow by exact Hv. rewrite Nat.add_0_r, updn_same. reflexivity.
Qed.
Lemma cat_four t d q : wf t -> (d < rank t)%nat -> nth d (shp t) 0%nat = (4 * q)%nat -> cat d (map (fun i => narrow t d (i * q) q) (seq 0 4)) = Ok t.
Proof.
  intros Hw Hd Hn. cbn [seq map cat cat_from]. replace (0 * q)%nat with 0%nat by lia. replace (1 * q)%nat with q by lia.
  rewrite cat2_narrow by (auto; lia). cbn [rbind]. replace (2 * q)%nat with (q + q)%nat by lia. rewrite cat2_narrow by (auto; lia). cbn [rbind].
  replace (3 * q)%nat with (q + q + q)%nat by lia. rewrite cat2_narrow by (auto; lia). cbn [rbind]. f_equal. apply narrow_all; [exact Hw|exact Hd|lia].
Qed.
Definition cols t : tensor K :=
  match shp t with
  | [b; h; v] => tmake (ttag t) [v * h; b]%nat (fun idx => match idx with [p; q] => get t [q; p mod h; p / h]%nat | _ => kzero end)
  | _ => t
  end.
Lemma shp_cols t b h v : shp t = [b; h; v] -> shp (cols t) = [v * h; b]%nat.
Proof. intros Hs. unfold cols. rewrite Hs. reflexivity. Qed.
Lemma wf_cols t : wf t -> wf (cols t).
Proof. intros Hw. unfold cols. destruct (shp t) as [|b [|h [|v [|? ?]]]]; auto. apply wf_make. Qed.
Lemma ttag_cols t : ttag (cols t) = ttag t.
Proof. unfold cols. destruct (shp t) as [|b [|h [|v [|? ?]]]]; reflexivity. Qed.
Lemma get_cols t b h v q k l : shp t = [b; h; v] -> (q < b)%nat -> (k < h)%nat -> (l < v)%nat -> get (cols t) [cix h k l; q] = get t [q; k; l].
Proof.
  intros Hs Hq Hk Hl. unfold cols. rewrite Hs. unfold cix. rewrite get_make by (valids; nia). assert (E1 : ((l * h + k) mod h = k)%nat) by (rewrite Nat.add_comm, Nat.mod_add by lia; apply Nat.mod_small; lia).
  assert (E2 : ((l * h + k) / h = l)%nat) by (rewrite Nat.div_add_l by lia; rewrite Nat.div_small by lia; lia). rewrite E1, E2. reflexivity.
Qed.
Lemma cix_inv h v p : (p < v * h)%nat -> exists k l, (k < h)%nat /\ (l < v)%nat /\ p = cix h k l.
Proof.
  intros H. assert (0 < h)%nat by nia. exists (p mod h)%nat, (p / h)%nat. split; [apply Nat.mod_upper_bound; lia|]. split; [apply Nat.div_lt_upper_bound; lia|].
  unfold cix. rewrite (Nat.div_mod p h) at 1 by lia. lia.
Qed.
(** a [v*h, b] tensor is determined by its entries at the column indices *)
Lemma cols_ext u u' h v b : wf u -> wf u' -> ttag u = ttag u' -> shp u = [v * h; b]%nat -> shp u' = [v * h; b]%nat ->
  (forall q k l, (q < b)%nat -> (k < h)%nat -> (l < v)%nat -> get u [cix h k l; q] = get u' [cix h k l; q]) -> u = u'.
Proof.
  intros W W' T S S' H. apply t_ext; auto; [congruence|]. intros idx Hv. rewrite S in Hv. destruct (valid2_inv _ _ _ Hv) as (p & q & -> & Hp & Hq).
  destruct (cix_inv h v p Hp) as (k & l & Hk & Hl & ->). apply H; assumption.
Qed.
Lemma resh_cols t b h v : wf t -> shp t = [b; h; v] -> (0 < b)%nat -> exists r, reshape_last (transpose t 1 2) [b] = Ok r /\ tT r = cols t /\ wf r /\ shp r = [b; (v * h)%nat].
Proof.
  intros Hw Hs Hb. destruct (transpose12 t b h v Hs) as [S1 G1]. unfold reshape_last. assert (Eb : prodl [b] = b) by (rewrite prodl_cons, prodl_nil; lia). rewrite Eb. destruct (Nat.eqb_spec b 0); [lia|].
  assert (Ep : prodl (shp (transpose t 1 2)) = (b * (v * h))%nat) by (rewrite S1; rewrite !prodl_cons, prodl_nil; lia).
  rewrite Ep. replace (b * (v * h) / b)%nat with (v * h)%nat by (symmetry; rewrite (Nat.mul_comm b); apply Nat.div_mul; lia). cbn [app]. unfold reshape. rewrite Ep.
  assert (Ep2 : prodl [b; (v * h)%nat] = (b * (v * h))%nat) by (rewrite !prodl_cons, prodl_nil; lia). rewrite Ep2, Nat.eqb_refl.
  set (r := mkT _ _ _). exists r. assert (Sr : shp r = [b; (v * h)%nat]) by reflexivity.
  assert (Wr : wf r). { unfold wf, r. cbn [shp dat]. rewrite Ep2, <- Ep. apply wf_transpose. }
  split; [reflexivity|]. split; [|split; [exact Wr|exact Sr]].
  apply (cols_ext _ _ h v b); [apply wf_tT|apply wf_cols, Hw|rewrite ttag_tT, ttag_cols; reflexivity|apply (shp_tT r b (v * h)%nat Sr)|apply shp_cols, Hs|].
  intros q k l Hq Hk Hl. rewrite (get_cols t b h v q k l Hs Hq Hk Hl). rewrite (get_tT r b (v * h)%nat _ _ Sr) by (unfold cix; nia).
  unfold r, cix. rewrite (get_mkT2 _ _ b v h q l k) by assumption. rewrite <- (G1 q l k Hq Hl Hk). unfold get. cbn [shp dat]. rewrite S1. reflexivity.
Qed.
Lemma to_cols_ok t b h v : wf t -> shp t = [b; h; v] -> (0 < b)%nat -> to_cols t = Ok (cols t).
Proof.
  intros Hw Hs Hb. unfold to_cols. rewrite Hs. cbn [nth]. destruct (resh_cols t b h v Hw Hs Hb) as (r & E & Er & _). rewrite E. cbn [rbind]. rewrite Er. reflexivity.
Qed.
Lemma of_cols_cols t b h v : wf t -> shp t = [b; h; v] -> of_cols (cols t) b h v = Ok t.
Proof.
  intros Hw Hs. unfold of_cols. pose proof (shp_cols t b h v Hs) as Sc. pose proof (shp_tT _ _ _ Sc) as St.
  unfold reshape. rewrite St. assert (Ep : prodl [b; (v * h)%nat] = prodl [b; v; h]) by (rewrite !prodl_cons, prodl_nil; lia). rewrite Ep, Nat.eqb_refl. cbn [rbind]. f_equal.
  set (r := mkT _ _ _). assert (Sr : shp r = [b; v; h]) by reflexivity. destruct (transpose12 r b v h Sr) as [S1 G1].
  apply t_ext; [apply wf_transpose|exact Hw|change (ttag (cols t) = ttag t); apply ttag_cols|congruence|].
  intros idx Hv. rewrite S1 in Hv. destruct (valid3_inv _ _ _ _ Hv) as (q & k & l & -> & Hq & Hk & Hl). rewrite G1 by assumption.
  unfold r. rewrite <- (get_mkT2 _ _ b v h q l k) by assumption. transitivity (get (tT (cols t)) [q; cix h k l]); [unfold get; cbn [shp dat]; rewrite St; reflexivity|].
  rewrite (get_tT _ _ _ _ _ Sc) by (unfold cix; nia). apply (get_cols t b h v); assumption.
Qed.

Lemma image_row_rix h v i j : image_row h v i j = rix h v i j.
Proof. unfold image_row, rix, bcode, image_col, ksel. cbv zeta. rewrite (Nat.mul_comm (v / 2) (h / 2)). destruct (Nat.ltb i (h / 2)), (Nat.ltb j (v / 2)); reflexivity. Qed.
Lemma image_col_cix h k l : image_col h k l = cix h k l.
Proof. reflexivity. Qed.
Lemma add_padding_any w m odd t b h v : translate_boundary odd = Ok (emode m) -> wf t -> shp t = [b; h; v] -> (2 <= h)%nat -> (2 <= v)%nat ->
  add_padding w odd t (map isodd [h; v]) = Ok (E m t).
Proof.
  intros Ho Hw Hs H1 H2. unfold add_padding. destruct (existsb (fun b => b) (map isodd [h; v])) eqn:Ex.
  - unfold fwt_pad_n. rewrite Ho. cbn [rbind]. rewrite pads_of_ev. apply (E_pad m t b [h; v] Hw Hs); [cbn; lia|]. repeat constructor; apply padable2n; assumption.
  - rewrite (E_even m t b [h; v] Hw Hs); [reflexivity|]. apply no_odd, Ex.
Qed.
(** the rows of the four blocks *)
Definition bit (c : bool) : nat := if c then 1%nat else 0%nat.
Lemma rix_block h v i j (d1 d2 : bool) : (h mod 2 = 0)%nat -> (v mod 2 = 0)%nat -> (i < h / 2)%nat -> (j < v / 2)%nat ->
  rix h v (if d1 then (h / 2 + i)%nat else i) (if d2 then (v / 2 + j)%nat else j) = ((bit d1 + 2 * bit d2) * (v / 2 * (h / 2)) + cix (h / 2) i j)%nat.
Proof.
  intros Hh Hv Hi Hj. unfold rix, bcode, ksel, cix, bit.
  destruct d1, d2;
    repeat match goal with |- context [Nat.ltb ?a ?b] => destruct (Nat.ltb_spec a b); [try lia|try lia] end;
    repeat match goal with |- context [(?a + ?b - ?a)%nat] => replace (a + b - a)%nat with b by lia end; lia.
Qed.
(** ** one level *)
Section Non.
Variables (w : wavelet K) (m : mode) (L : nat) (g : tag).
Variables A2 S2 : nat -> nat -> smat K.
Hypothesis HL : (2 <= L)%nat.
Hypothesis HA : forall h v, (L <= h)%nat -> (L <= v)%nat -> (h mod 2 = 0)%nat -> (v mod 2 = 0)%nat ->
  s_tag (A2 h v) = g /\ s_rows (A2 h v) = (v * h)%nat /\ s_cols (A2 h v) = (v * h)%nat /\ orthogonal (v * h) (mget (A2 h v)) /\
  s_tag (S2 h v) = g /\ s_rows (S2 h v) = (v * h)%nat /\ s_cols (S2 h v) = (v * h)%nat /\ (forall i j, mget (S2 h v) i j = mget (A2 h v) j i).
Definition Mi : list nat -> list nat -> list nat -> K := image_matrix (fun h v => mget (A2 h v)).
Notation bd := (bandc Mi m).
Definition ksN : list (list bool) := [bHL; bLH; bHH].
(** the product of the level's matrix with the extended image *)
Definition prodv t : tensor K :=
  match shp t with
  | [b; h; v] => let H := even_up h in let V := even_up v in
     tmake (ttag t) [V * H; b]%nat (fun idx => match idx with [i; j] => mat_vec (mget (A2 H V)) (V * H) (fun k => get (cols (E m t)) [k; j]) i | _ => kzero end)
  | _ => t
  end.
Lemma shp_prodv t b h v : shp t = [b; h; v] -> shp (prodv t) = [even_up v * even_up h; b]%nat.
Proof. intros Hs. unfold prodv. rewrite Hs. reflexivity. Qed.
Lemma part_ok t b h v (d1 d2 : bool) : wf t -> shp t = [b; h; v] -> (L <= h)%nat -> (L <= v)%nat ->
  let q := (even_up h / 2 * (even_up v / 2))%nat in
  narrow (prodv t) 0 ((bit d1 + 2 * bit d2) * q) q = cols (bd [d1; d2] t).
Proof.
  intros Hw Hs H1 H2. cbv zeta. pose proof (even_up_even h) as Eh. pose proof (even_up_even v) as Ev. pose proof (shp_prodv t b h v Hs) as Sp.
  pose proof (shp_bandc Mi m [d1; d2] t b _ Hs) as Sb. cbn [map] in Sb. pose proof (shp_cols _ _ _ _ Sb) as Sc.
  set (H := even_up h) in *. set (V := even_up v) in *. set (q := (H / 2 * (V / 2))%nat).
  apply (cols_ext _ _ (H / 2) (V / 2) b); [apply wf_make|apply wf_cols, wf_core|rewrite ttag_cols; unfold prodv; rewrite Hs; reflexivity|rewrite shp_narrow, Sp; cbn [updn]; f_equal; unfold q; lia|exact Sc|].
  intros r i j Hr Hi Hj. rewrite (get_cols _ b (H / 2) (V / 2) r i j Sb Hr Hi Hj).
  assert (Hq : (cix (H / 2) i j < q)%nat) by (unfold cix, q; nia).
  assert (Hrow : (bit d1 + 2 * bit d2 < 4)%nat) by (destruct d1, d2; cbn; lia). assert (HV : (V * H = 4 * q)%nat).
  { unfold q. pose proof (Nat.div_mod H 2 ltac:(lia)). pose proof (Nat.div_mod V 2 ltac:(lia)). nia. }
  rewrite get_narrow by (rewrite Sp; cbn [updn]; repeat constructor; assumption). cbn [nth updn].
  unfold bandc. rewrite get_core by (rewrite Hs; cbn [hd tl map]; fold H V; repeat constructor; assumption). rewrite Hs. cbn [tl].
  unfold prodv. rewrite Hs. cbv zeta. fold H V. rewrite get_make by (repeat constructor; try assumption; nia).
  unfold mat_vec. rewrite sumf_grid, sumf_swap. unfold bwn_op. cbn [map band_rows]. fold H V. cbn [sumI].
  apply sumf_ext. intros k Hk. apply sumf_ext. intros l Hl. unfold Mi, image_matrix. rewrite image_row_rix. change (image_col H k l) with (cix H k l).
  rewrite (rix_block H V i j d1 d2 Eh Ev Hi Hj). fold (cix H k l). rewrite (get_cols (E m t) b H V r k l (shp_E m t b _ Hs) Hr Hk Hl).
  rewrite (get_E m t b [h; v] r [k; l] Hs Hr) by (cbn [map]; fold H V; repeat constructor; assumption). cbn [map].
  f_equal. f_equal. unfold q. lia.
Qed.
Lemma split4_ok t b h v : wf t -> shp t = [b; h; v] -> (L <= h)%nat -> (L <= v)%nat ->
  split4 (prodv t) (even_up h / 2 * (even_up v / 2)) = Ok (map (fun k => cols (bd k t)) (bLL :: ksN)).
Proof.
  intros Hw Hs H1 H2. pose proof (even_up_even h) as Eh. pose proof (even_up_even v) as Ev. pose proof (even_up_ge h). pose proof (even_up_ge v).
  pose proof (fun d1 d2 => part_ok t b h v d1 d2 Hw Hs H1 H2) as HP. cbv zeta in HP. unfold split4. rewrite (shp_prodv t b h v Hs). cbn [nth].
  set (q := (even_up h / 2 * (even_up v / 2))%nat) in *.
  assert (HV : (even_up v * even_up h = 4 * q)%nat). { unfold q. pose proof (Nat.div_mod (even_up h) 2 ltac:(lia)). pose proof (Nat.div_mod (even_up v) 2 ltac:(lia)). nia. }
  assert (Hq : (0 < q)%nat) by nia.
  destruct (Nat.eqb_spec q 0) as [E0|_]; [lia|]. rewrite HV, Nat.eqb_refl. f_equal. cbn [seq map ksN].
  pose proof (HP false false) as P0. pose proof (HP true false) as P1. pose proof (HP false true) as P2. pose proof (HP true true) as P3. cbn [bit Nat.add Nat.mul] in P0, P1, P2, P3.
  unfold bLL, bHL, bLH, bHH. rewrite <- P0, <- P1, <- P2, <- P3. reflexivity.
Qed.
Lemma mm_ok t b h v : wf t -> shp t = [b; h; v] -> ttag t = g -> (L <= h)%nat -> (L <= v)%nat -> sp_dense_mm (A2 (even_up h) (even_up v)) (cols (E m t)) = Ok (prodv t).
Proof.
  intros Hw Hs Hg H1 H2. pose proof (even_up_ge h). pose proof (even_up_ge v).
  destruct (HA (even_up h) (even_up v) ltac:(lia) ltac:(lia) (even_up_even h) (even_up_even v)) as (T1 & T2 & T3 & _).
  rewrite (sp_dense_mm_ok _ _ (even_up v * even_up h)%nat b); [|apply (shp_cols _ b _ _ (shp_E m t b _ Hs))|rewrite T1, ttag_cols; symmetry; exact Hg|exact T3].
  rewrite T2, ttag_cols. unfold prodv. rewrite Hs. reflexivity.
Qed.
Definition lmN (s : list nat) : list (smat K) := match s with [h; v] => [A2 h v] | _ => [] end.
Definition lsN (s : list nat) : list (smat K) := match s with [h; v] => [S2 h v] | _ => [] end.
Definition detsN t : pyval K := PTup (map (fun k => bd k t) ksN).
Lemma sub_odd n : (even_up n - (if isodd n then 1 else 0))%nat = n.
Proof. unfold even_up, isodd. destruct (Nat.eqb_spec (n mod 2) 0); cbn [negb]; lia. Qed.
Lemma mw2n_loop_ok odd : translate_boundary odd = Ok (emode m) -> forall J t b h v rest acc, wf t -> shp t = [b; h; v] -> ttag t = g -> (0 < b)%nat -> fitsN L J [h; v] ->
  mw2n_loop w odd b (bmatsN lmN J [h; v]) (bpadsN J [h; v]) (bsizesN J [h; v] ++ rest) (cols t) acc =
  Ok (cols (Nat.iter J (bd bLL) t), map (fun j => detsN (Nat.iter j (bd bLL) t)) (rev (seq 0 J)) ++ acc).
Proof.
  intros Ho. induction J as [|J IH]; intros t b h v rest acc Hw Hs Hg Hb Hf; [reflexivity|]. destruct Hf as [Hn Hf]. apply Forall2_inv in Hn as [H1 H2].
  cbn [bmatsN bpadsN bsizesN mw2n_loop app map lmN nth]. rewrite !sub_odd.
  match goal with |- rbind ?X _ = _ => assert (HE : X = Ok (cols (E m t))) end.
  { destruct (existsb (fun y => y) [isodd h; isodd v]) eqn:Ex.
    - rewrite (of_cols_cols t b h v Hw Hs). cbn [rbind]. change [isodd h; isodd v] with (map isodd [h; v]). rewrite (add_padding_any w m odd t b h v Ho Hw Hs) by lia. cbn [rbind].
      apply (to_cols_ok _ b (even_up h) (even_up v)); [apply wf_E|apply (shp_E m t b _ Hs)|exact Hb].
    - rewrite (E_even m t b [h; v] Hw Hs); [reflexivity|]. apply no_odd, Ex. }
  rewrite HE. cbn [rbind]. rewrite (mm_ok t b h v Hw Hs Hg H1 H2). cbn [rbind]. rewrite (split4_ok t b h v Hw Hs H1 H2). cbn [rbind map tl hd].
  pose proof (fun k => shp_bandc Mi m k t b _ Hs) as Sb. cbn [map] in Sb.
  assert (HI : rmap (fun e => of_cols e b (even_up h / 2) (even_up v / 2)) (map (fun k => cols (bd k t)) ksN) = Ok (map (fun k => bd k t) ksN)).
  { assert (HO : forall k, of_cols (cols (bd k t)) b (even_up h / 2) (even_up v / 2) = Ok (bd k t)) by (intros k; apply of_cols_cols; [apply wf_core|apply Sb]).
    cbn [ksN map rmap]. rewrite !HO. reflexivity. }
  rewrite HI. cbn [rbind].
  rewrite (IH (bd bLL t) b (half_up h) (half_up v)); [|apply wf_core|apply Sb|exact Hg|exact Hb|exact Hf].
  assert (LO : forall J, Nat.iter (S J) (bd bLL) t = Nat.iter J (bd bLL) (bd bLL t)) by (intros J'; apply iter_r).
  rewrite LO, seq_S_map, <- app_assoc. cbn [app]. do 2 f_equal. f_equal. apply map_ext. intros j. rewrite LO. reflexivity.
Qed.
Lemma mr2n_level_ok t b h v : wf t -> shp t = [b; h; v] -> ttag t = g -> (0 < b)%nat -> (L <= h)%nat -> (L <= v)%nat ->
  mr2_level false (lsN (map even_up [h; v])) (bd bLL t) (bd bHL t) (bd bLH t) (bd bHH t) = Ok (E m t).
Proof.
  intros Hw Hs Hg Hb H1 H2. pose proof (even_up_ge h). pose proof (even_up_ge v). pose proof (even_up_even h) as Eh. pose proof (even_up_even v) as Ev.
  destruct (HA (even_up h) (even_up v) ltac:(lia) ltac:(lia) Eh Ev) as (T1 & T2 & T3 & T4 & T5 & T6 & T7 & T8).
  pose proof (fun k => shp_bandc Mi m k t b _ Hs) as Sb. cbn [map] in Sb. unfold mr2_level, lsN. cbn [map]. rewrite Sb. cbn [nth].
  pose proof (fun k => resh_cols (bd k t) b _ _ (wf_core _ _ _) (Sb k) Hb) as HR.
  destruct (HR bLL) as (r0 & E0 & C0 & W0 & Z0). destruct (HR bHL) as (r1 & E1 & C1 & W1 & Z1). destruct (HR bLH) as (r2 & E2 & C2 & W2 & Z2). destruct (HR bHH) as (r3 & E3 & C3 & W3 & Z3).
  cbn [rmap]. rewrite E0, E1, E2, E3. cbn [rbind].
  pose proof (shp_prodv t b h v Hs) as Sp. assert (Wp : wf (prodv t)) by (unfold prodv; rewrite Hs; apply wf_make).
  pose proof (shp_tT _ _ _ Sp) as St.
  set (q := (even_up h / 2 * (even_up v / 2))%nat) in *.
  assert (HV : (even_up v * even_up h = 4 * q)%nat). { unfold q. pose proof (Nat.div_mod (even_up h) 2 ltac:(lia)). pose proof (Nat.div_mod (even_up v) 2 ltac:(lia)). nia. }
  assert (Hn : forall (r : tensor K) k i, tT r = cols (bd k t) -> wf r -> shp r = [b; (even_up v / 2 * (even_up h / 2))%nat] -> (i < 4)%nat -> narrow (prodv t) 0 (i * q) q = cols (bd k t) -> r = narrow (tT (prodv t)) 1 (i * q) q).
  { intros r k i HC HW HZ Hi HN. assert (HZ' : shp r = [b; q]) by (rewrite HZ; f_equal; f_equal; unfold q; lia).
    apply t_ext; [exact HW|apply wf_make| |rewrite shp_narrow, St; exact HZ'|].
    - rewrite <- (ttag_tT r), HC, ttag_cols. unfold prodv. rewrite Hs. reflexivity.
    - intros idx Hv. rewrite HZ' in Hv. destruct (valid2_inv _ _ _ Hv) as (p & c & -> & Hp & Hc).
      rewrite <- (get_tT r b q c p HZ') by assumption. rewrite HC, <- HN.
      rewrite !get_narrow by (rewrite ?Sp, ?St; cbn [updn]; repeat constructor; assumption). cbn [nth updn]. symmetry. apply (get_tT _ _ _ _ _ Sp); [exact Hp|rewrite HV; clear - Hi Hc; nia]. }
  pose proof (fun d1 d2 => part_ok t b h v d1 d2 Hw Hs H1 H2) as HP. cbv zeta in HP. fold q in HP.
  rewrite (Hn r0 bLL 0%nat C0 W0 Z0 ltac:(lia) (HP false false)), (Hn r1 bHL 1%nat C1 W1 Z1 ltac:(lia) (HP true false)), (Hn r2 bLH 2%nat C2 W2 Z2 ltac:(lia) (HP false true)), (Hn r3 bHH 3%nat C3 W3 Z3 ltac:(lia) (HP true true)).
  pose proof (cat_four (tT (prodv t)) 1 q (wf_tT _)) as HC4. cbn [seq map] in HC4. rewrite HC4; [|unfold rank; rewrite St; cbn; lia|rewrite St; exact HV]. cbn [rbind].
  assert (HT : tT (tT (prodv t)) = prodv t).
  { apply t_ext; [apply wf_tT|exact Wp|rewrite !ttag_tT; reflexivity|rewrite (shp_tT _ _ _ St), Sp; reflexivity|]. intros idx Hv. rewrite (shp_tT _ _ _ St) in Hv. destruct (valid2_inv _ _ _ Hv) as (p & c & -> & Hp & Hc).
    rewrite (get_tT _ _ _ _ _ St) by assumption. apply (get_tT _ _ _ _ _ Sp); assumption. }
  rewrite HT. rewrite (sp_dense_mm_ok _ _ (even_up v * even_up h)%nat b Sp); [|rewrite T5; unfold prodv; rewrite Hs; symmetry; exact Hg|exact T7]. cbn [rbind].
  pose proof (shp_E m t b _ Hs) as SE. cbn [map] in SE. pose proof (shp_cols _ _ _ _ SE) as SC.
  assert (HF : tmake (ttag (prodv t)) [s_rows (S2 (even_up h) (even_up v)); b] (fun idx => match idx with [i; j] => mat_vec (mget (S2 (even_up h) (even_up v))) (even_up v * even_up h) (fun k => get (prodv t) [k; j]) i | _ => kzero end) = cols (E m t)).
  { rewrite T6. apply t_ext; [apply wf_make|apply wf_cols, wf_E|rewrite ttag_cols; unfold prodv; rewrite Hs; reflexivity|rewrite shp_make, SC; reflexivity|].
    intros idx Hv. rewrite shp_make in Hv. destruct (valid2_inv _ _ _ Hv) as (p & c & -> & Hp & Hc). rewrite get_make by exact Hv. unfold mat_vec.
    set (N := (even_up v * even_up h)%nat) in *.
    rewrite (sumf_ext _ _ (fun i => sumf N (fun k => (mget (A2 (even_up h) (even_up v)) i p * mget (A2 (even_up h) (even_up v)) i k) * get (cols (E m t)) [k; c]))).
    - rewrite sumf_swap. rewrite (sumf_ext _ _ (fun k => delta p k * get (cols (E m t)) [k; c])).
      + rewrite (sumf_single _ p); [unfold delta; rewrite Nat.eqb_refl; ring|exact Hp|]. intros k _ Hk. unfold delta. destruct (Nat.eqb_spec p k); [congruence|ring].
      + intros k Hk. rewrite sumf_mul_r. f_equal. exact (proj2 T4 p k Hp Hk).
    - intros i Hi. rewrite T8. unfold prodv. rewrite Hs. cbv zeta. rewrite get_make by (repeat constructor; assumption). unfold mat_vec. rewrite <- sumf_mul_l. apply sumf_ext. intros k Hk. fold N. ring. }
  rewrite HF. replace (even_up h / 2 * 2)%nat with (even_up h) by lia. replace (even_up v / 2 * 2)%nat with (even_up v) by lia. apply (of_cols_cols _ b); [apply wf_E|exact SE].
Qed.
Lemma mr2n_loop_ok : forall J t b h v rs his, wf t -> shp t = [b; h; v] -> ttag t = g -> ((0 < J)%nat -> (0 < b)%nat) -> fitsN L J [h; v] ->
  mr2_loop false (rev (bmatsN lsN J [h; v]) ++ rs) (Nat.iter J (bd bLL) t) (map (fun j => detsN (Nat.iter j (bd bLL) t)) (rev (seq 0 J)) ++ his) =
  (let* r := (match J with O => Ok t | _ => crop_next2 (E m t) [even_up h; even_up v] his end) in mr2_loop false rs r his).
Proof.
  induction J as [|J IH]; intros t b h v rs his Hw Hs Hg Hb Hf; [reflexivity|]. destruct Hf as [Hn Hf]. apply Forall2_inv in Hn as [H1 H2].
  assert (LO : forall J, Nat.iter (S J) (bd bLL) t = Nat.iter J (bd bLL) (bd bLL t)) by (intros J'; apply iter_r).
  cbn [bmatsN rev]. rewrite LO, seq_S_map, <- !app_assoc. cbn [app].
  assert (Sd : forall k, shp (bd k t) = [b; half_up h; half_up v]) by (intros k; apply (shp_bandc Mi m k t b [h; v] Hs)).
  rewrite (map_ext (fun j => detsN (Nat.iter (S j) (bd bLL) t)) (fun j => detsN (Nat.iter j (bd bLL) (bd bLL t)))) by (intros j; rewrite LO; reflexivity).
  cbn [map]. rewrite (IH (bd bLL t) b (half_up h) (half_up v)); [|apply wf_core|apply Sd|exact Hg|intros _; apply Hb; lia|exact Hf].
  assert (Hr : (match J with O => Ok (bd bLL t) | S _ => crop_next2 (E m (bd bLL t)) [even_up (half_up h); even_up (half_up v)] (detsN t :: his) end) = Ok (bd bLL t)).
  { destruct J; [reflexivity|]. unfold detsN. cbn [map ksN]. apply (crop_next2_E m (bd bLL t) b (half_up h) (half_up v)); [apply wf_core|apply Sd|apply Sd]. }
  cbn [Nat.iter nat_rect]. rewrite Hr. cbn [rbind]. unfold detsN at 1. cbn [map ksN]. rewrite mr2_loop_cons. cbn [forallb]. rewrite !Sd, leqb_refl. cbn [andb negb].
  change [even_up h; even_up v] with (map even_up [h; v]) at 1.
  rewrite (mr2n_level_ok t b h v Hw Hs Hg (Hb ltac:(lia)) H1 H2). cbn [rbind last2 List.length skipn Nat.sub map].
  unfold half_up. pose proof (even_up_even h) as Eh. pose proof (even_up_even v) as Ev. replace (even_up h / 2 * 2)%nat with (even_up h) by lia. replace (even_up v / 2 * 2)%nat with (even_up v) by lia. reflexivity.
Qed.
End Non.
End NN.
