(** The property theorems about sparse_math.py: C33 - C37. *)
From Coq Require Import List Arith ZArith Lia Bool String Ring.
From Verif Require Import Base Sums Tensor TensorFacts Spec Accept Examples SpecMat Sparse SparseFacts SparseConv SparseConv2 SparseMM.
Import ListNotations.

Local Arguments Nat.div : simpl never.
Local Arguments Nat.modulo : simpl never.
Local Arguments Nat.ltb : simpl never.
Section PS.
Context {K : CRing}.
Add Ring Kring : (cr_th K).
Open Scope K_scope.
Implicit Types (m : smat K) (t : tensor K).

(** ** C33.  sparse_kron is the Kronecker product: whenever the two matrices (arbitrary entry lists: repeated
    entries, explicit zeros, none at all) are on one device it returns a matrix of the product size whose entry at
    (p, q) is the product of the entries at (p / rows b, q / cols b) and (p mod rows b, q mod cols b); the only
    exception is a matrix without stored entries together with a product size that contains a zero. *)
Theorem C33_sparse_kron m m' : s_wf m -> s_wf m' -> snd (s_tag m) = snd (s_tag m') ->
  ((s_ent m <> [] /\ s_ent m' <> []) \/ (0 < s_rows m * s_rows m' /\ 0 < s_cols m * s_cols m')%nat) ->
  exists r, sparse_kron m m' = Ok r /\ s_wf r /\ s_rows r = (s_rows m * s_rows m')%nat /\ s_cols r = (s_cols m * s_cols m')%nat /\
  forall p q, (p < s_rows m * s_rows m')%nat -> (q < s_cols m * s_cols m')%nat ->
    mget r p q = mget m (p / s_rows m')%nat (q / s_cols m')%nat * mget m' (p mod s_rows m')%nat (q mod s_cols m')%nat.
Proof.
  intros Hw Hw' Hd Hne.
  assert (Hco : forall a : smat K, s_wf a -> s_ent a <> [] -> s_ent (coalesce a) <> []).
  { intros a Ha Hn He. destruct (s_ent a) as [|[[i j] v] l] eqn:E; [congruence|].
    assert (Hin : In (i, j) (stored (s_ent a) (s_rows a) (s_cols a))).
    { apply in_stored. unfold s_wf in Ha. rewrite E in Ha. apply Forall_inv in Ha. apply in_size_spec in Ha. cbn [fst snd] in Ha.
      split; [exact Ha|]. exists v. rewrite E. left. reflexivity. }
    unfold coalesce in He. cbn [s_ent] in He. apply map_eq_nil in He. rewrite He in Hin. destruct Hin. }
  destruct (sparse_kron_run m m' Hd Hw Hw') as [r Hr].
  { destruct Hne as [[H1 H2]|H]; [right|left]; auto. }
  destruct (sparse_kron_ok m m' r Hw Hw' Hr) as (E1 & E2 & E3 & E4 & _).
  exists r. repeat split; auto. intros p q Hp Hq.
  assert (s_rows m' <> 0 /\ s_cols m' <> 0)%nat as [N1 N2] by (split; intros Z; rewrite Z, Nat.mul_0_r in *; lia).
  rewrite <- (E4 (p / s_rows m') (q / s_cols m') (p mod s_rows m') (q mod s_cols m'))%nat by (apply Nat.mod_upper_bound; assumption).
  f_equal; rewrite Nat.mul_comm; apply Nat.div_mod; assumption.
Qed.
(** the dtype: the more precise one of the two if both have stored entries (real dtypes; complex64 with float64 would
    be complex128, which is not modelled), float32 otherwise *)
Definition precision (d : dtype) : nat := match d with int64 => 0 | float16 => 1 | float32 => 2 | float64 => 3 | complex64 => 4 end.
Theorem C33_dtype m m' r : s_wf m -> s_wf m' -> sparse_kron m m' = Ok r ->
  let d := fst (s_tag m) in let d' := fst (s_tag m') in
  snd (s_tag r) = snd (s_tag m) /\
  (s_ent m <> [] -> s_ent m' <> [] -> (fst (s_tag r) = d \/ fst (s_tag r) = d') /\ precision (fst (s_tag r)) = Nat.max (precision d) (precision d')) /\
  (s_ent m = [] \/ s_ent m' = [] -> fst (s_tag r) = float32).
Proof.
  intros Hw Hw' Hr. destruct (sparse_kron_ok m m' r Hw Hw' Hr) as (_ & _ & _ & _ & E5 & E6 & E7).
  assert (Hco : forall a : smat K, s_wf a -> s_ent a <> [] -> s_ent (coalesce a) <> []).
  { intros a Ha Hn He. destruct (s_ent a) as [|[[i j] v] l] eqn:E; [congruence|].
    assert (Hin : In (i, j) (stored (s_ent a) (s_rows a) (s_cols a))).
    { apply in_stored. unfold s_wf in Ha. rewrite E in Ha. apply Forall_inv in Ha. apply in_size_spec in Ha. cbn [fst snd] in Ha.
      split; [exact Ha|]. exists v. rewrite E. left. reflexivity. }
    unfold coalesce in He. cbn [s_ent] in He. apply map_eq_nil in He. rewrite He in Hin. destruct Hin. }
  assert (Hno : forall a : smat K, s_ent a = [] -> s_ent (coalesce a) = []).
  { intros a He. unfold coalesce. cbn [s_ent]. destruct (stored (s_ent a) (s_rows a) (s_cols a)) as [|[i j] l] eqn:E; [reflexivity|].
    assert (Hin : In (i, j) (stored (s_ent a) (s_rows a) (s_cols a))) by (rewrite E; left; reflexivity).
    apply in_stored in Hin. destruct Hin as [_ [v Hv]]. rewrite He in Hv. destruct Hv. }
  cbv zeta. split; [exact E5|]. split.
  - intros N N'. rewrite E6 by auto. destruct (fst (s_tag m)), (fst (s_tag m')); cbn; auto.
  - intros [H|H]; apply E7; [left|right]; apply Hno, H.
Qed.
Theorem C33_other_device m m' : snd (s_tag m) <> snd (s_tag m') -> sparse_kron m m' = Raise ValueError.
Proof.
  intros H. unfold sparse_kron. destruct (device_eqb (snd (s_tag m)) (snd (s_tag m'))) eqn:E; [|reflexivity].
  exfalso. apply H. destruct (snd (s_tag m)), (snd (s_tag m')); cbn in E; try discriminate; auto. apply Nat.eqb_eq in E. congruence.
Qed.

(** ** C34.  The convolution matrix applied to (the columns of) a dense matrix: row k is the full convolution of the
    filter and the column at position k + offset(mode); as many rows as the mode promises. *)
Lemma start_offset mode L : conv_mode mode -> (0 < L)%nat -> conv_start mode L = conv_offset mode L.
Proof.
  intros H HL. unfold conv_start, conv_offset. destruct (String.eqb mode "full"); [reflexivity|]. destruct (String.eqb mode "valid"); [reflexivity|].
  pose proof (Nat.div_mod L 2 ltac:(lia)) as E. pose proof (Nat.mod_upper_bound L 2 ltac:(lia)).
  assert (D : (L mod 2 = 0 \/ L mod 2 = 1)%nat) by lia. destruct D as [D|D]; rewrite D in *.
  - replace (L - 1)%nat with (1 + (L / 2 - 1) * 2)%nat by lia. rewrite Nat.div_add by lia. change (1 / 2)%nat with 0%nat. lia.
  - replace (L - 1)%nat with (0 + (L / 2) * 2)%nat by lia. rewrite Nat.div_add by lia. change (0 / 2)%nat with 0%nat. lia.
Qed.
Theorem C34_conv_matrix (filt : list K) t n p mode : filt <> [] -> (0 < n)%nat -> shp t = [n; p] -> conv_mode mode ->
  (mode = "valid"%string -> (List.length filt <= n)%nat) ->
  exists M y, construct_conv_matrix (ttag t) filt n mode = Ok M /\ sp_dense_mm M t = Ok y /\ ttag y = ttag t /\
  shp y = [conv_length mode (List.length filt) n; p] /\
  forall k j, (k < conv_length mode (List.length filt) n)%nat -> (j < p)%nat ->
    get y [k; j] = full_conv filt n (fun c => get t [c; j]) (k + conv_offset mode (List.length filt)).
Proof.
  intros Hf Hn Hs Hm Hv. destruct (construct_conv_matrix_ok (ttag t) filt n mode Hf Hn Hm Hv) as (M & EM & ET & ER & EC & EW & EV & _).
  exists M. rewrite (sp_dense_mm_ok M t n p Hs ET EC). eexists. split; [exact EM|]. split; [reflexivity|]. split; [reflexivity|].
  split; [rewrite shp_make, ER; reflexivity|]. intros k j Hk Hj. change (conv_length mode (List.length filt) n) with (conv_outlen mode (List.length filt) n) in Hk.
  rewrite get_make by (rewrite ER; repeat constructor; auto). unfold mat_vec, full_conv. apply sumf_ext. intros c Hc. rewrite EV by (rewrite ?ER; auto).
  rewrite start_offset by (first [assumption | destruct filt; [congruence|cbn; lia]]). f_equal. f_equal. lia.
Qed.
(** the strided matrix: every stride-th output, starting with the first ("sameshift": with the second) *)
Theorem C34_strided_conv_matrix (filt : list K) t n p stride mode : filt <> [] -> (0 < n)%nat -> (0 < stride)%nat -> shp t = [n; p] -> conv_mode mode ->
  (mode = "valid"%string -> (List.length filt <= n)%nat) ->
  let s0 := if String.eqb mode "sameshift" then 1%nat else 0%nat in
  exists M y, construct_strided_conv_matrix (ttag t) filt n stride mode = Ok M /\ sp_dense_mm M t = Ok y /\ ttag y = ttag t /\
  shp y = [((conv_length mode (List.length filt) n - s0 + (stride - 1)) / stride)%nat; p] /\
  forall k j, (s0 + k * stride < conv_length mode (List.length filt) n)%nat -> (j < p)%nat ->
    get y [k; j] = full_conv filt n (fun c => get t [c; j]) (s0 + k * stride + conv_offset mode (List.length filt)).
Proof.
  intros Hf Hn Hst Hs Hm Hv s0. destruct (construct_strided_conv_matrix_ok (ttag t) filt n stride mode Hf Hn Hst Hm Hv) as (M & EM & ET & ER & EC & EW & EV & _).
  fold s0 in ER, EV. exists M. rewrite (sp_dense_mm_ok M t n p Hs ET EC). eexists. split; [exact EM|]. split; [reflexivity|]. split; [reflexivity|].
  change (conv_length mode (List.length filt) n) with (conv_outlen mode (List.length filt) n). set (OL := conv_outlen mode (List.length filt) n) in *.
  split; [rewrite shp_make, ER; do 2 f_equal; lia|]. intros k j Hk Hj.
  assert (Hk' : (k < s_rows M)%nat).
  { rewrite ER. apply Nat.div_le_lower_bound; [lia|]. nia. }
  rewrite get_make by (repeat constructor; auto). unfold mat_vec, full_conv. apply sumf_ext. intros c Hc. rewrite EV by auto.
  rewrite start_offset by (first [assumption | destruct filt; [congruence|cbn; lia]]). f_equal. f_equal. lia.
Qed.
Theorem C34_unknown_mode g (filt : list K) n stride mode : ~ conv_mode mode ->
  construct_conv_matrix g filt n mode = Raise ValueError /\ construct_strided_conv_matrix g filt n stride mode = Raise ValueError.
Proof.
  intros H. assert (E : construct_conv_matrix g filt n mode = Raise ValueError).
  { unfold construct_conv_matrix, conv_rows. unfold conv_mode in H.
    destruct (String.eqb_spec mode "full"); [tauto|]. destruct (String.eqb_spec mode "same"); [tauto|]. destruct (String.eqb_spec mode "sameshift"); [tauto|].
    destruct (String.eqb_spec mode "valid"); [tauto|]. reflexivity. }
  split; [exact E|]. unfold construct_strided_conv_matrix. rewrite E. reflexivity.
Qed.

(** ** C35.  The two-dimensional convolution matrix applied to the column-major vector of an image (entry (k, c) at
    position c*h + k) is the column-major vector of the two-dimensional convolution. *)
Lemma sumf_grid w h (f : nat -> K) : sumf (w * h) f = sumf w (fun c => sumf h (fun k => f (c * h + k)%nat)).
Proof.
  induction w as [|w IH]; [reflexivity|]. cbn [Nat.mul]. rewrite Nat.add_comm, sumf_app. cbn [sumf]. rewrite IH. reflexivity.
Qed.
Theorem C35_conv2d_matrix (filt : tensor K) t fh fw h w b mode : shp filt = [fh; fw] -> (0 < fh)%nat -> (0 < fw)%nat -> (0 < h)%nat -> (0 < w)%nat ->
  shp t = [(w * h)%nat; b] -> ttag filt = ttag t -> conv_mode mode ->
  (mode = "valid"%string -> (fh <= h /\ fw <= w)%nat) -> (mode = "same"%string \/ mode = "sameshift"%string -> (fw / 2 < w)%nat) ->
  exists M y, construct_conv2d_matrix filt h w mode = Ok M /\ sp_dense_mm M t = Ok y /\ ttag y = ttag t /\
  shp y = [(conv_length mode fw w * conv_length mode fh h)%nat; b] /\
  forall q r j, (q < conv_length mode fh h)%nat -> (r < conv_length mode fw w)%nat -> (j < b)%nat ->
    get y [(r * conv_length mode fh h + q)%nat; j] =
    full_conv2 filt h w (fun k c => get t [(c * h + k)%nat; j]) (q + conv_offset mode fh) (r + conv_offset mode fw).
Proof.
  intros Hs Hfh Hfw Hh Hw Ht Hg Hm Hv Hsm.
  destruct (construct_conv2d_matrix_ok filt fh fw h w mode Hs Hfh Hfw Hh Hw Hm Hv Hsm) as (M & EM & ET & ER & EC & EW & EV).
  exists M. rewrite (sp_dense_mm_ok M t (w * h)%nat b Ht (eq_trans ET Hg) EC). eexists. split; [exact EM|]. split; [reflexivity|]. split; [reflexivity|].
  change (conv_length mode fw w) with (conv_outlen mode fw w). change (conv_length mode fh h) with (conv_outlen mode fh h).
  split; [rewrite shp_make, ER; reflexivity|]. intros q r j Hq Hr Hj.
  rewrite get_make by (rewrite ER; repeat constructor; auto; nia). unfold mat_vec. rewrite sumf_grid. unfold full_conv2.
  apply sumf_ext. intros c Hc. apply sumf_ext. intros k Hk. rewrite EV by assumption. f_equal. unfold fget2, mat_at.
  rewrite !start_offset by assumption. rewrite !Nat2Z.inj_add. reflexivity.
Qed.
Theorem C35_strided_conv2d_matrix (filt : tensor K) t fh fw h w b stride mode : shp filt = [fh; fw] -> (0 < fh)%nat -> (0 < fw)%nat -> (0 < h)%nat -> (0 < w)%nat ->
  (0 < stride)%nat -> shp t = [(w * h)%nat; b] -> ttag filt = ttag t -> conv_mode mode ->
  (mode = "valid"%string -> (fh <= h /\ fw <= w)%nat) -> (mode = "same"%string \/ mode = "sameshift"%string -> (fw / 2 < w)%nat) ->
  let s0 := if String.eqb mode "sameshift" then 1%nat else 0%nat in
  let nr := ((conv_length mode fh h - s0 + (stride - 1)) / stride)%nat in let nc := ((conv_length mode fw w - s0 + (stride - 1)) / stride)%nat in
  exists M y, construct_strided_conv2d_matrix filt h w stride mode = Ok M /\ sp_dense_mm M t = Ok y /\ ttag y = ttag t /\ shp y = [(nc * nr)%nat; b] /\
  forall q r j, (q < nr)%nat -> (r < nc)%nat -> (j < b)%nat ->
    get y [(r * nr + q)%nat; j] =
    full_conv2 filt h w (fun k c => get t [(c * h + k)%nat; j]) (s0 + q * stride + conv_offset mode fh) (s0 + r * stride + conv_offset mode fw).
Proof.
  intros Hs Hfh Hfw Hh Hw Hst Ht Hg Hm Hv Hsm s0 nr nc.
  destruct (construct_strided_conv2d_matrix_ok filt fh fw h w stride mode Hs Hfh Hfw Hh Hw Hst Hm Hv Hsm) as (M & EM & ET & ER & EC & EW & EV).
  fold s0 in ER, EV. replace (conv_outlen mode fh h - s0 + stride - 1)%nat with (conv_length mode fh h - s0 + (stride - 1))%nat in ER, EV by (unfold conv_length, conv_outlen; lia).
  replace (conv_outlen mode fw w - s0 + stride - 1)%nat with (conv_length mode fw w - s0 + (stride - 1))%nat in ER, EV by (unfold conv_length, conv_outlen; lia).
  fold nr nc in ER, EV.
  exists M. rewrite (sp_dense_mm_ok M t (w * h)%nat b Ht (eq_trans ET Hg) EC). eexists. split; [exact EM|]. split; [reflexivity|]. split; [reflexivity|].
  split; [rewrite shp_make, ER; reflexivity|]. intros q r j Hq Hr Hj.
  rewrite get_make by (rewrite ER; repeat constructor; auto; nia). unfold mat_vec. rewrite sumf_grid. unfold full_conv2.
  apply sumf_ext. intros c Hc. apply sumf_ext. intros k Hk. rewrite EV by assumption. f_equal. unfold fget2, mat_at.
  rewrite !start_offset by assumption. rewrite !(Nat2Z.inj_add (s0 + _)). reflexivity.
Qed.
(** the remaining images, narrower than half the filter, are rejected (same-type modes) *)
Lemma sparse_diag_shape g d off rows cols (D : smat K) : sparse_diag g d off rows cols = Ok D -> s_tag D = g /\ s_rows D = rows /\ s_cols D = cols /\ s_wf D.
Proof.
  unfold sparse_diag. intros H. apply rbind_ok in H. destruct H as (l1 & _ & H). apply rbind_ok in H. destruct H as (l2 & _ & H).
  apply sp_make_ok in H. destruct H as [-> H]. auto.
Qed.
Theorem C35_narrow_rejected (filt : tensor K) fh fw h w mode : shp filt = [fh; fw] -> (0 < fh)%nat -> (0 < fw)%nat -> (0 < h)%nat -> (0 < w)%nat ->
  mode = "same"%string \/ mode = "sameshift"%string -> (w <= fw / 2)%nat -> exists e, construct_conv2d_matrix filt h w mode = Raise e.
Proof.
  intros Hs Hfh Hfw Hh Hw Hsame Hn. assert (Hm : conv_mode mode) by (unfold conv_mode; tauto).
  unfold construct_conv2d_matrix. rewrite Hs. cbn [nth].
  assert (Hnv : mode <> "valid"%string) by (destruct Hsame; subst; discriminate).
  rewrite kron_geom_ok by (auto; intros; contradiction). cbn [rbind].
  assert (Eo : conv_outlen mode fw w = w) by (destruct Hsame; subst; reflexivity). rewrite Eo.
  assert (Hlen : forall i, List.length (filt_col filt i) = fh) by (intros; unfold filt_col; rewrite map_length, seq_length, Hs; reflexivity).
  destruct (rmap_all (fun i => construct_conv_matrix (ttag filt) (filt_col filt i) h mode) (fun i b => s_tag b = ttag filt /\ s_rows b = h /\ s_cols b = h /\ s_wf b) (seq 0 fw)) as (blocks & EB & LB & PB).
  { intros i Hi. destruct (construct_conv_matrix_ok (ttag filt) (filt_col filt i) h mode) as (b & E0 & E1 & E2 & E3 & E4 & _); auto; [|intros; contradiction|].
    - intros E. specialize (Hlen i). rewrite E in Hlen. cbn in Hlen. lia.
    - exists b. repeat split; auto. rewrite E2. destruct Hsame; subst; reflexivity. }
  rewrite EB. cbn [rbind]. rewrite seq_length in LB, PB.
  assert (HB : forall b, In b blocks -> s_tag b = ttag filt /\ s_rows b = h /\ s_cols b = h /\ s_wf b).
  { intros b Hb. destruct (In_nth blocks b (mkS (ttag filt) 0 0 []) Hb) as (i & Hi & <-). apply (PB i 0%nat). lia. }
  clear PB EB. set (di := Z.of_nat (conv_start mode fw)).
  assert (Hkron : forall b off D, In b blocks -> sparse_diag (ttag filt) (repeat (kone (c := K)) (Nat.min w w)) off w w = Ok D ->
      exists r, sparse_kron D b = Ok r /\ s_rows r = (w * h)%nat /\ s_cols r = (w * h)%nat).
  { intros b off D Hb HD. apply sparse_diag_shape in HD. destruct HD as (D1 & D2 & D3 & D4). destruct (HB b Hb) as (B1 & B2 & B3 & B4).
    destruct (sparse_kron_run D b) as [r Hr]; [congruence|assumption|assumption|left; rewrite D2, D3, B2, B3; nia|].
    exists r. destruct (sparse_kron_ok D b r D4 B4 Hr) as (R1 & R2 & _). split; [exact Hr|]. rewrite R1, R2, D2, D3, B2, B3. auto. }
  destruct (sparse_diag (ttag filt) (repeat 1 (Nat.min w w)) di w w) as [D|e] eqn:ED; cbn [rbind]; [|eauto].
  destruct blocks as [|b0 rest]; [eauto|]. destruct (Hkron b0 di D (or_introl eq_refl) ED) as (k0 & E0 & K1 & K2). rewrite E0. cbn [rbind].
  apply conv2d_loop_raise.
  - cbn [List.length] in LB. pose proof (Nat.div_mod fw 2 ltac:(lia)). subst di. unfold conv_start. destruct Hsame; subst mode; cbn [String.eqb Ascii.eqb Bool.eqb]; lia.
  - subst di. lia.
  - intros b off D' Hb HD'. rewrite K1, K2. apply (Hkron b off D'); [right; exact Hb|exact HD'].
Qed.

(** ** C36.  Row replacement, and the block diagonal with an identity *)
Theorem C36_replace_row m i row : s_wf m -> s_wf row -> s_rows row = 1%nat -> s_cols row = s_cols m -> s_rows m = s_cols m -> (i < s_rows m)%nat ->
  exists r, sparse_replace_row m i row = Ok r /\ s_rows r = s_rows m /\ s_cols r = s_cols m /\ s_wf r /\
  (forall b, mget r i b = mget row 0 b) /\ (forall a b, a <> i -> mget r a b = mget m a b).
Proof.
  intros H1 H2 H3 H4 H5 H6. destruct (sparse_replace_row_ok m i row H1 H2 H3 H4 H5 H6) as (r & E1 & E2 & E3 & E4 & E5 & E6).
  exists r. repeat split; auto; intros.
  - rewrite E6, Nat.eqb_refl. reflexivity.
  - rewrite E6. destruct (Nat.eqb_spec a i); [contradiction|reflexivity].
Qed.
Theorem C36_replace_row_rejects m i row :
  (s_cols row <> s_cols m -> sparse_replace_row m i row = Raise ValueError) /\
  (s_cols row = s_cols m -> (s_rows m <= i)%nat -> sparse_replace_row m i row = Raise IndexError).
Proof.
  split; intros H; unfold sparse_replace_row.
  - destruct (Nat.eqb_spec (s_cols m) (s_cols row)); [congruence|reflexivity].
  - intros Hi. rewrite H, Nat.eqb_refl. cbn [negb]. destruct (Nat.ltb_spec i (s_rows m)); [lia|reflexivity].
Qed.
(** a non-square matrix is never accepted, although nothing in the documentation excludes it *)
Theorem C36_replace_row_square_only m i row r : sparse_replace_row m i row = Ok r -> s_rows m = s_cols m.
Proof.
  unfold sparse_replace_row. destruct (Nat.eqb (s_cols m) (s_cols row)); cbn [negb]; [|discriminate]. destruct (Nat.ltb i (s_rows m)); cbn [negb]; [|discriminate].
  intros H. apply rbind_ok in H. destruct H as (rem & E1 & H). apply rbind_ok in H. destruct H as (add & E2 & H).
  apply sp_make_ok in E1. destruct E1 as [-> _]. revert H.
  unfold sp_mm. cbn [s_cols s_rows coalesce]. destruct (tag_eqb _ _ && Nat.eqb (s_cols m) (s_rows m)) eqn:E; [|cbn; discriminate].
  apply andb_true_iff in E. destruct E as [_ E]. apply Nat.eqb_eq in E. auto.
Qed.
Theorem C36_cat_identity m N : s_wf m -> s_rows m = s_cols m -> (s_rows m <= N)%nat ->
  exists r, cat_sparse_identity_matrix m N = Ok r /\ s_rows r = N /\ s_cols r = N /\ s_wf r /\
  forall i j, (i < N)%nat -> (j < N)%nat ->
    mget r i j = if Nat.ltb i (s_rows m) && Nat.ltb j (s_rows m) then mget m i j else if Nat.ltb i (s_rows m) || Nat.ltb j (s_rows m) then 0 else delta i j.
Proof.
  intros H1 H2 H3. destruct (cat_identity_ok m N H1 H2 H3) as (r & E1 & E2 & E3 & E4 & E5 & E6). exists r. repeat split; auto. intros i j Hi Hj.
  rewrite E6 by assumption. destruct (Nat.ltb_spec i (s_rows m)), (Nat.ltb_spec j (s_rows m)); cbn [orb andb]; try reflexivity; apply mget_out; auto; lia.
Qed.
Theorem C36_cat_identity_rejects m N : s_rows m <> s_cols m \/ (N < s_rows m)%nat -> cat_sparse_identity_matrix m N = Raise ValueError.
Proof.
  intros H. unfold cat_sparse_identity_matrix. destruct (Nat.eqb_spec (s_rows m) (s_cols m)); cbn [negb]; [|reflexivity].
  destruct (Nat.ltb_spec N (s_rows m)); [reflexivity|]. lia.
Qed.

(** ** C37.  Batched products: the matrix acts on every fibre along the axis ([mat_axis]) *)
Theorem C37_batch_mm m t b n k : wf t -> shp t = [b; n; k] -> s_tag m = ttag t -> s_cols m = n -> (0 < n)%nat -> (0 < b)%nat -> (0 < s_rows m)%nat ->
  exists y, batch_mm m t = Ok y /\ ttag y = ttag t /\ shp y = [b; s_rows m; k] /\
  forall e i j, (e < b)%nat -> (i < s_rows m)%nat -> (j < k)%nat -> get y [e; i; j] = sumf n (fun l => mget m i l * get t [e; l; j]).
Proof.
  intros Hw Hs Hg Hc Hn Hb Hr. rewrite (batch_mm_ok m t b n k Hs Hw Hg Hc Hn Hb Hr). eexists. split; [reflexivity|]. split; [reflexivity|].
  assert (Esh : shp (mat_axis (mget m) (s_rows m) 1 t) = [b; s_rows m; k]) by (unfold mat_axis, along_axes; rewrite shp_make, Hs; reflexivity).
  split; [exact Esh|]. intros e i j He Hi Hj. unfold mat_axis, along_axes in *. rewrite get_make by (rewrite Hs; repeat constructor; auto).
  rewrite Hs. cbn. reflexivity.
Qed.
Theorem C37_batch_mm_rejects m t : (rank t <> 3)%nat \/ s_cols m <> nth 1 (shp t) 0%nat -> batch_mm m t = Raise ValueError.
Proof.
  intros H. unfold batch_mm. unfold rank in H. destruct (shp t) as [|a [|b [|c [|d l]]]]; try reflexivity. destruct H as [H|H]; [cbn in H; lia|]. cbn in H.
  destruct (Nat.eqb_spec (s_cols m) b); [congruence|reflexivity].
Qed.
Theorem C37_batch_dim_mm m t a : wf t -> (a < rank t)%nat -> s_tag m = ttag t -> s_cols m = nth a (shp t) 0%nat -> (0 < s_cols m)%nat ->
  batch_dim_mm m t a = Ok (mat_axis (mget m) (s_rows m) a t).
Proof. apply batch_dim_mm_ok. Qed.
End PS.

(** ** The hypotheses are met: matrices with a repeated entry, an explicit zero and no entry at all *)
Definition exA : smat ZK := mkS (K := ZK) f32 2 3 [(1, 2, 5%Z); (0, 0, 2%Z); (1, 2, (-1)%Z); (0, 1, 0%Z)].
Definition exB : smat ZK := mkS (K := ZK) f32 2 2 [(0, 1, 3%Z); (1, 1, 1%Z)].
Definition exNone : smat ZK := mkS (K := ZK) f32 2 2 [].
Example ex_sparse_wf : s_wf exA /\ s_wf exB /\ s_wf exNone.
Proof. repeat split; unfold s_wf; repeat constructor. Qed.
Example ex_kron : match sparse_kron exA exB with
  | Ok r => map (fun p => map (mget r p) (seq 0 6)) (seq 0 4) = [[0; 6; 0; 0; 0; 0]; [0; 2; 0; 0; 0; 0]; [0; 0; 0; 0; 0; 12]; [0; 0; 0; 0; 0; 4]]%Z | _ => False end.
Proof. vm_compute. reflexivity. Qed.
Example ex_kron_none : match sparse_kron exA exNone with Ok r => s_tag r = f32 /\ s_rows r = 4 /\ s_cols r = 6 | _ => False end.
Proof. vm_compute. auto. Qed.
(** the corner: no stored entry and a zero in the size *)
Example ex_kron_corner : sparse_kron exA (mkS (K := ZK) f32 0 2 []) = Raise RuntimeError.
Proof. reflexivity. Qed.
Example ex_conv : match construct_conv_matrix (K := ZK) f32 [1; 2; 3; 4]%Z 5 "same" with
  | Ok M => map (fun p => map (mget M p) (seq 0 5)) (seq 0 (s_rows M)) = [[2; 1; 0; 0; 0]; [3; 2; 1; 0; 0]; [4; 3; 2; 1; 0]; [0; 4; 3; 2; 1]; [0; 0; 4; 3; 2]]%Z | _ => False end.
Proof. vm_compute. reflexivity. Qed.
(** "valid" with a signal shorter than the filter *)
Example ex_conv_short : construct_conv_matrix (K := ZK) f32 [1; 2; 3; 4]%Z 3 "valid" = Raise RuntimeError.
Proof. reflexivity. Qed.
Definition exF2 : tensor ZK := mkT (K := ZK) f32 [2; 3] [1; 2; 3; 4; 5; 6]%Z.
Example ex_conv2d : match construct_conv2d_matrix exF2 3 2 "same" with
  | Ok M => map (fun p => map (mget M p) (seq 0 6)) (seq 0 (s_rows M)) =
      [[2; 0; 0; 1; 0; 0]; [5; 2; 0; 4; 1; 0]; [0; 5; 2; 0; 4; 1]; [3; 0; 0; 2; 0; 0]; [6; 3; 0; 5; 2; 0]; [0; 6; 3; 0; 5; 2]]%Z | _ => False end.
Proof. vm_compute. reflexivity. Qed.
Example ex_strided_conv2d : match construct_strided_conv2d_matrix exF2 3 2 2 "valid", construct_strided_conv2d_matrix exF2 4 4 2 "sameshift" with
  | Ok M, _ => False | Raise _, Ok M => s_rows M = 4 /\ map (mget M 3) (seq 0 16) = [0; 0; 0; 0; 0; 0; 0; 0; 0; 0; 6; 3; 0; 0; 5; 2]%Z | _, _ => False end.
Proof. vm_compute. auto. Qed.
Example ex_replace_row : match sparse_replace_row exB 1 (sp_row exB 0) with
  | Ok r => map (fun p => map (mget r p) (seq 0 2)) (seq 0 2) = [[0; 3]; [0; 3]]%Z | _ => False end.
Proof. vm_compute. reflexivity. Qed.
Example ex_replace_row_not_square : sparse_replace_row exA 1 (sp_row exA 0) = Raise RuntimeError.
Proof. reflexivity. Qed.
Example ex_batch_dim_mm : match batch_dim_mm exA (exT [2; 3; 2]) 1 with Ok y => shp y = [2; 2; 2] /\ dat y = [0; 8; 44; 24; 6; 4; 44; 4]%Z | _ => False end.
Proof. vm_compute. auto. Qed.
Example ex_batch_mm : match batch_mm exA (exT [2; 3; 2]) with Ok y => shp y = [2; 2; 2] | _ => False end.
Proof. vm_compute. auto. Qed.
