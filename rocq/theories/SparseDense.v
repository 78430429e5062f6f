(** sparse_math.py: _dense_kron and construct_conv2d_matrix with the flag fully_sparse (C33, C35). *)
From Coq Require Import List Arith ZArith Lia Bool String Ascii Ring.
From Coq Require Import ZifyNat ZifyBool.
From Verif Require Import Base Sums Tensor TensorFacts Util Perm Plumb Accept Sparse SparseFacts SparseConv SparseConv2 PropsSparse Examples.
Import ListNotations.
Ltac Zify.zify_post_hook ::= Z.div_mod_to_equations.
Local Open Scope nat_scope.

Section SD.
Context {K : CRing}.
Add Ring Kring : (cr_th K).
Local Open Scope K_scope.
Implicit Types (m : smat K) (t : tensor K).

(** torch.kron of two matrices *)
Definition tkron t u : tensor K :=
  let r := nth 0 (shp u) 0%nat in let c := nth 1 (shp u) 0%nat in
  tmake (promote (tdtype t) (tdtype u), tdevice t) [(nth 0 (shp t) 0 * r)%nat; (nth 1 (shp t) 0 * c)%nat]
    (fun idx => match idx with [p; q] => get t [(p / r)%nat; (q / c)%nat] * get u [(p mod r)%nat; (q mod c)%nat] | _ => 0 end).
(** sparse_math.py:11-29 _dense_kron; torch.kron refuses tensors on different devices *)
Definition dense_kron m m' : result (smat K) :=
  if negb (device_eqb (snd (s_tag m)) (snd (s_tag m'))) then Raise RuntimeError
  else Ok (to_sparse (tkron (to_dense m) (to_dense m'))).
(** sparse_math.py:439-442: the choice *)
Definition kron_of (fully_sparse : bool) := if fully_sparse then sparse_kron (K := K) else dense_kron.
(** sparse_math.py:473-477: the loop *)
Fixpoint conv2d_loop_fs (fs : bool) (g : tag) (diag_values : list K) (diag_index : Z) (krows w : nat) (blocks : list (smat K)) (acc : smat K) : result (smat K) :=
  match blocks with
  | [] => Ok acc
  | b :: rest =>
      let d := (diag_index - 1)%Z in
      let* diag := sparse_diag g diag_values d krows w in
      let* k := kron_of fs diag b in
      let* acc' := sp_add acc k in
      conv2d_loop_fs fs g diag_values d krows w rest acc'
  end.
(** sparse_math.py:408-479 construct_conv2d_matrix *)
Definition construct_conv2d_matrix_fs (fs : bool) t (h w : nat) (mode : string) : result (smat K) :=
  let g := ttag t in
  let fw := nth 1 (shp t) 0%nat in
  let* geom := kron_geom mode fw w in
  let '(di, krows) := geom in
  let* blocks := rmap (fun i => construct_conv_matrix g (filt_col t i) h mode) (seq 0 fw) in
  let diag_values := repeat kone (Nat.min krows w) in
  let* diag := sparse_diag g diag_values di krows w in
  match blocks with
  | [] => Raise IndexError
  | b0 :: rest =>
      let* k0 := kron_of fs diag b0 in
      conv2d_loop_fs fs g diag_values di krows w rest k0
  end.
Lemma fs_true t h w mode : construct_conv2d_matrix_fs true t h w mode = construct_conv2d_matrix t h w mode.
Proof.
  unfold construct_conv2d_matrix_fs, construct_conv2d_matrix. destruct (kron_geom mode _ w) as [[di kr]|e]; [|reflexivity]. cbn [rbind].
  destruct (rmap _ _) as [bl|e]; [|reflexivity]. cbn [rbind]. destruct (sparse_diag _ _ _ _ _) as [D|e]; [|reflexivity]. cbn [rbind]. destruct bl as [|b0 rest]; [reflexivity|]. cbn [kron_of].
  destruct (sparse_kron D b0) as [k0|e]; [|reflexivity]. cbn [rbind]. revert di k0. clear D b0. generalize (repeat (kone (c := K)) (Nat.min kr w)). intros dv.
  induction rest as [|b rest IH]; intros di k0; [reflexivity|]. cbn [conv2d_loop_fs conv2d_loop kron_of].
  destruct (sparse_diag _ _ _ _ _) as [D|e]; [|reflexivity]. cbn [rbind]. destruct (sparse_kron D b) as [k|e]; [|reflexivity]. cbn [rbind].
  destruct (sp_add k0 k) as [a|e]; [|reflexivity]. cbn [rbind]. apply IH.
Qed.

(** the same matrix, possibly stored differently *)
Definition same_matrix m m' : Prop := s_tag m = s_tag m' /\ s_rows m = s_rows m' /\ s_cols m = s_cols m' /\ forall i j, mget m i j = mget m' i j.
Lemma mget_out m i j : s_wf m -> (s_rows m <= i \/ s_cols m <= j)%nat -> mget m i j = 0.
Proof.
  intros Hw Ho. apply eg_zero. intros e He Ha. exfalso. unfold s_wf in Hw. rewrite Forall_forall in Hw. specialize (Hw e He). apply in_size_spec in Hw. apply at_pos_spec in Ha. lia.
Qed.
Lemma eg_grid_row (v : nat -> K) (i p q : nat) c : ent_get (map (fun j => (i, j, v j)) (seq 0 c)) p q = if (Nat.eqb p i && Nat.ltb q c)%bool then v q else 0.
Proof.
  unfold ent_get. rewrite sumL_map. induction c as [|c IH].
  - cbn. rewrite andb_false_r. reflexivity.
  - rewrite seq_S, sumL_app, IH. cbn [sumL Nat.add]. unfold at_pos. cbn [fst snd]. rewrite (Nat.eqb_sym i p), (Nat.eqb_sym c q).
    destruct (Nat.eqb p i); cbn [andb]; [|ring]. destruct (Nat.eqb_spec q c) as [->|Hn].
    + rewrite (proj2 (Nat.ltb_ge c c)) by lia. rewrite (proj2 (Nat.ltb_lt c (S c))) by lia. ring.
    + destruct (Nat.ltb_spec q c); destruct (Nat.ltb_spec q (S c)); try lia; ring.
Qed.
Lemma to_sparse_ok t r c : shp t = [r; c] -> s_tag (to_sparse t) = ttag t /\ s_rows (to_sparse t) = r /\ s_cols (to_sparse t) = c /\ s_wf (to_sparse t) /\
  forall p q, mget (to_sparse t) p q = if (Nat.ltb p r && Nat.ltb q c)%bool then get t [p; q] else 0.
Proof.
  intros Hs. unfold to_sparse. rewrite Hs. repeat split.
  - unfold s_wf. cbn [s_ent s_rows s_cols]. apply Forall_forall. intros e He. apply in_flat_map in He as (i & Hi & He). apply in_map_iff in He as (j & <- & Hj). apply in_seq in Hi. apply in_seq in Hj. apply in_size_spec. cbn [fst snd]. lia.
  - intros p q. unfold mget. cbn [s_ent]. clear Hs. induction r as [|r IH].
    + cbn. reflexivity.
    + rewrite seq_S, flat_map_app, eg_app, IH. cbn [flat_map Nat.add]. rewrite app_nil_r, eg_grid_row.
      destruct (Nat.eqb_spec p r) as [->|Hn]; cbn [andb].
      * rewrite (proj2 (Nat.ltb_ge r r)) by lia. rewrite (proj2 (Nat.ltb_lt r (S r))) by lia. cbn [andb]. ring.
      * destruct (Nat.ltb_spec p r); destruct (Nat.ltb_spec p (S r)); try lia; cbn [andb]; ring.
Qed.
(** _dense_kron is the Kronecker product, without conditions on the stored entries *)
Theorem C33_dense_kron m m' : s_wf m -> s_wf m' -> snd (s_tag m) = snd (s_tag m') ->
  exists r, dense_kron m m' = Ok r /\ s_tag r = (promote (fst (s_tag m)) (fst (s_tag m')), snd (s_tag m)) /\ s_wf r /\ s_rows r = (s_rows m * s_rows m')%nat /\ s_cols r = (s_cols m * s_cols m')%nat /\
  forall p q, (p < s_rows m * s_rows m')%nat -> (q < s_cols m * s_cols m')%nat ->
    mget r p q = mget m (p / s_rows m')%nat (q / s_cols m')%nat * mget m' (p mod s_rows m')%nat (q mod s_cols m')%nat.
Proof.
  intros Hw Hw' Hd. unfold dense_kron. rewrite Hd.
  replace (device_eqb (snd (s_tag m')) (snd (s_tag m'))) with true by (destruct (snd (s_tag m')); cbn; rewrite ?Nat.eqb_refl; reflexivity). cbn [negb].
  eexists. split; [reflexivity|].
  destruct (to_sparse_ok (tkron (to_dense m) (to_dense m')) (s_rows m * s_rows m') (s_cols m * s_cols m') eq_refl) as (T1 & T2 & T3 & T4 & T5).
  split; [rewrite T1; unfold tkron; rewrite ttag_make; cbn; rewrite <- Hd; reflexivity|]. split; [exact T4|]. split; [exact T2|]. split; [exact T3|].
  intros p q Hp Hq. rewrite T5. rewrite (proj2 (Nat.ltb_lt _ _) Hp), (proj2 (Nat.ltb_lt _ _) Hq). cbn [andb]. unfold tkron. rewrite get_make by (repeat constructor; assumption). cbn [shp to_dense tmake nth].
  assert (s_rows m' <> 0%nat /\ s_cols m' <> 0%nat) as [Hr Hc] by (split; intros E; rewrite E in *; lia).
  unfold to_dense. rewrite !get_make; [reflexivity| |].
  - repeat constructor; apply Nat.mod_upper_bound; assumption.
  - repeat constructor; apply Nat.div_lt_upper_bound; lia.
Qed.
Lemma kron_same m m' k : s_wf m -> s_wf m' -> s_ent m <> [] -> s_ent m' <> [] -> sparse_kron m m' = Ok k ->
  exists k', dense_kron m m' = Ok k' /\ same_matrix k k'.
Proof.
  intros Hw Hw' He He' Hk.
  assert (Hd : snd (s_tag m) = snd (s_tag m')).
  { unfold sparse_kron in Hk. destruct (device_eqb (snd (s_tag m)) (snd (s_tag m'))) eqn:E; [|discriminate]. destruct (snd (s_tag m)), (snd (s_tag m')); cbn in E; try discriminate; auto. apply Nat.eqb_eq in E. congruence. }
  destruct (sparse_kron_ok m m' k Hw Hw' Hk) as (R1 & R2 & R3 & R4 & R5 & R6 & _).
  destruct (C33_dense_kron m m' Hw Hw' Hd) as (k' & E' & K1 & K2 & K3 & K4 & K5). exists k'. split; [exact E'|]. split; [|split; [congruence|split; [congruence|]]].
  - rewrite K1. specialize (R6 (coalesce_ent _ Hw He) (coalesce_ent _ Hw' He')). destruct (s_tag k). cbn in *. congruence.
  - intros p q. destruct (Nat.lt_ge_cases p (s_rows m * s_rows m')) as [Hp|Hp]; [|rewrite (mget_out k), (mget_out k'); auto; left; lia].
    destruct (Nat.lt_ge_cases q (s_cols m * s_cols m')) as [Hq|Hq]; [|rewrite (mget_out k), (mget_out k'); auto; right; lia].
    rewrite K5 by assumption. assert (s_rows m' <> 0%nat /\ s_cols m' <> 0%nat) as [Hr Hc] by (split; intros E; rewrite E in *; lia).
    rewrite (Nat.div_mod p (s_rows m') Hr) at 1. rewrite (Nat.div_mod q (s_cols m') Hc) at 1. rewrite (Nat.mul_comm (s_rows m')), (Nat.mul_comm (s_cols m')). apply R4; apply Nat.mod_upper_bound; assumption.
Qed.
Lemma sp_add_same m m' k k' r : same_matrix m m' -> same_matrix k k' -> sp_add m k = Ok r -> exists r', sp_add m' k' = Ok r' /\ same_matrix r r'.
Proof.
  intros (A1 & A2 & A3 & A4) (B1 & B2 & B3 & B4) H. apply sp_add_ok in H as (H1 & H2 & ->). rewrite sp_add_run by congruence. eexists. split; [reflexivity|].
  split; [exact A1|]. split; [exact A2|]. split; [exact A3|]. intros i j. unfold mget. cbn [s_ent]. rewrite !eg_app. fold (mget m i j) (mget m' i j) (mget k i j) (mget k' i j). rewrite A4, B4. reflexivity.
Qed.
Lemma loop_same g krows w oh h : (0 < krows)%nat -> (0 < w)%nat -> forall (blocks : list (smat K)) di acc acc' r, (di - Z.of_nat (List.length blocks) > - Z.of_nat krows)%Z -> (di <= Z.of_nat w)%Z ->
  Forall (block_ok g oh h) blocks -> same_matrix acc acc' ->
  conv2d_loop_fs true g (repeat (kone (c := K)) (Nat.min krows w)) di krows w blocks acc = Ok r ->
  exists r', conv2d_loop_fs false g (repeat (kone (c := K)) (Nat.min krows w)) di krows w blocks acc' = Ok r' /\ same_matrix r r'.
Proof.
  intros Hk Hw. induction blocks as [|b blocks IH]; intros di acc acc' r H1 H2 HB Hs Hr; cbn [conv2d_loop_fs] in *.
  - injection Hr as <-. eauto.
  - cbn [List.length] in H1. destruct (sparse_diag_ok (K := K) g krows w (di - 1)%Z Hk Hw) as (D & ED & D1 & D2 & D3 & D4 & D5 & D6); [lia|lia|].
    rewrite ED in Hr |- *. cbn [rbind] in *. cbn [kron_of] in *. apply rbind_ok in Hr as (k & Ek & Hr). apply rbind_ok in Hr as (a & Ea & Hr).
    destruct (Forall_inv HB) as (B1 & B2 & B3 & B4 & B5). destruct (kron_same D b k D4 B4 D5 B5 Ek) as (k' & Ek' & Sk). rewrite Ek'. cbn [rbind].
    destruct (sp_add_same acc acc' k k' a Hs Sk Ea) as (a' & Ea' & Sa). rewrite Ea'. cbn [rbind]. apply (IH (di - 1)%Z a a' r); auto; [lia|lia|exact (Forall_inv_tail HB)].
Qed.
(** both settings of fully_sparse give the same matrix *)
Theorem C35_fully_sparse (filt : tensor K) fh fw h w mode : shp filt = [fh; fw] -> (0 < fh)%nat -> (0 < fw)%nat -> (0 < h)%nat -> (0 < w)%nat -> conv_mode mode ->
  (mode = "valid"%string -> (fh <= h /\ fw <= w)%nat) -> (mode = "same"%string \/ mode = "sameshift"%string -> (fw / 2 < w)%nat) ->
  exists M M', construct_conv2d_matrix_fs true filt h w mode = Ok M /\ construct_conv2d_matrix_fs false filt h w mode = Ok M' /\ same_matrix M M'.
Proof.
  intros Hs Hfh Hfw Hh Hw Hm Hv Hsame. destruct (construct_conv2d_matrix_ok filt fh fw h w mode Hs Hfh Hfw Hh Hw Hm Hv Hsame) as (M & EM & _).
  rewrite <- fs_true in EM. exists M. assert (Goal2 : exists M', construct_conv2d_matrix_fs false filt h w mode = Ok M' /\ same_matrix M M'); [|destruct Goal2 as (M' & E1 & E2); eauto].
  unfold construct_conv2d_matrix_fs in EM |- *. rewrite Hs in EM |- *. cbn [nth] in EM |- *.
  rewrite kron_geom_ok in EM |- * by (auto; intros E; apply Hv in E; lia). cbn [rbind] in EM |- *.
  set (kr := conv_outlen mode fw w) in *. set (oh := conv_outlen mode fh h). set (di := Z.of_nat (conv_start mode fw)) in *.
  assert (Hlen : forall i, List.length (filt_col filt i) = fh) by (intros; unfold filt_col; rewrite map_length, seq_length, Hs; reflexivity).
  assert (Hoh : (0 < oh)%nat) by (apply outlen_pos; auto; intros E; apply Hv in E; lia).
  assert (Hkr : (0 < kr)%nat) by (apply outlen_pos; auto; intros E; apply Hv in E; lia).
  destruct (rmap_all (fun i => construct_conv_matrix (ttag filt) (filt_col filt i) h mode) (fun i b => block_ok (ttag filt) oh h b) (seq 0 fw)) as (blocks & EB & LB & PB).
  { intros i Hi. destruct (construct_conv_matrix_ok (ttag filt) (filt_col filt i) h mode) as (b & E0 & E1 & E2 & E3 & E4 & E5 & E6); auto.
    - intros E. specialize (Hlen i). rewrite E in Hlen. cbn in Hlen. lia.
    - intros E. rewrite Hlen. apply Hv in E. lia.
    - rewrite Hlen in *. exists b. split; [exact E0|]. repeat split; auto. intros E. destruct (proj2 (E6 0%nat 0%nat)) as [v Hin]; [|rewrite E in Hin; destruct Hin].
      rewrite E2. split; [exact Hoh|]. pose proof (start_lt mode fh Hm Hfh). lia. }
  rewrite seq_length in LB. rewrite EB in EM |- *. cbn [rbind] in EM |- *.
  assert (Hdi : (di < Z.of_nat w)%Z /\ (di - Z.of_nat fw + 1 > - Z.of_nat kr)%Z).
  { subst di kr. pose proof (Nat.div_mod fw 2 ltac:(lia)). unfold conv_start, conv_outlen.
    destruct Hm as [->|[->|[->| ->]]]; cbn [String.eqb Ascii.eqb Bool.eqb]; [lia| | |].
    - specialize (Hsame (or_introl eq_refl)). pose proof (Nat.mod_upper_bound fw 2 ltac:(lia)). lia.
    - specialize (Hsame (or_intror eq_refl)). pose proof (Nat.mod_upper_bound fw 2 ltac:(lia)). lia.
    - specialize (Hv eq_refl). lia. }
  assert (HB : Forall (block_ok (ttag filt) oh h) blocks).
  { apply Forall_forall. intros b Hb. destruct (In_nth blocks b (mkS (ttag filt) 0 0 []) Hb) as (i & Hi & <-). apply (PB i 0%nat). rewrite seq_length. lia. }
  destruct (sparse_diag_ok (K := K) (ttag filt) kr w di Hkr Hw) as (D & ED & D1 & D2 & D3 & D4 & D5 & D6); [lia|lia|].
  rewrite ED in EM |- *. cbn [rbind] in EM |- *. destruct blocks as [|b0 rest]; [discriminate|]. cbn [kron_of] in EM |- *. apply rbind_ok in EM as (k0 & Ek & EM).
  destruct (Forall_inv HB) as (B1 & B2 & B3 & B4 & B5). destruct (kron_same D b0 k0 D4 B4 D5 B5 Ek) as (k' & Ek' & Sk). rewrite Ek'. cbn [rbind].
  apply (loop_same (ttag filt) kr w oh h Hkr Hw rest di k0 k' M); auto; try lia; [cbn [List.length] in LB; lia|exact (Forall_inv_tail HB)].
Qed.
End SD.

Theorem ex_fully_sparse : match construct_conv2d_matrix_fs true exF2 3 2 "same", construct_conv2d_matrix_fs false exF2 3 2 "same" with
  | Ok M, Ok M' => s_rows M' = 6 /\ s_cols M' = 6 /\ dat (to_dense M) = dat (to_dense M') /\ List.length (s_ent M) <> List.length (s_ent M')
  | _, _ => False end.
Proof. vm_compute. repeat split. discriminate. Qed.
