(** Which positions of the two-dimensional convolution matrices are stored. *)
From Coq Require Import List Arith ZArith Lia Bool String Ring.
From Verif Require Import Base Sums Tensor TensorFacts Accept Sparse SparseFacts SparseConv SparseConv2.
Import ListNotations.

Local Arguments Nat.div : simpl never.
Local Arguments Nat.modulo : simpl never.
Local Arguments Nat.ltb : simpl never.
(** an entry is stored at (i, j) *)
Definition st {K : CRing} (m : smat K) (i j : nat) : Prop := exists v, In ((i, j), v) (s_ent m).
Section C2S.
Context {K : CRing}.
Add Ring Kring : (cr_th K).
Open Scope K_scope.
Implicit Types (m : smat K) (t : tensor K).

Lemma st_coalesce m i j : s_wf m -> st (coalesce m) i j <-> st m i j.
Proof.
  intros Hw. unfold st, coalesce. cbn [s_ent]. split.
  - intros [v Hv]. apply in_map_iff in Hv as ([a b] & E & Hv). cbn [fst snd] in E. injection E as -> -> _. apply in_stored in Hv. tauto.
  - intros [v Hv]. exists (mget m i j). apply in_map_iff. exists (i, j). split; [reflexivity|]. apply in_stored. split; [|eauto].
    unfold s_wf in Hw. rewrite Forall_forall in Hw. specialize (Hw _ Hv). apply in_size_spec in Hw. exact Hw.
Qed.
Lemma st_wf m i j : s_wf m -> st m i j -> (i < s_rows m /\ j < s_cols m)%nat.
Proof. intros Hw [v Hv]. unfold s_wf in Hw. rewrite Forall_forall in Hw. specialize (Hw _ Hv). apply in_size_spec in Hw. exact Hw. Qed.
Lemma st_add m m' r i j : sp_add m m' = Ok r -> st r i j <-> st m i j \/ st m' i j.
Proof.
  intros H. apply sp_add_ok in H as (_ & _ & ->). unfold st. cbn [s_ent]. split.
  - intros [v Hv]. apply in_app_or in Hv as [Hv|Hv]; eauto.
  - intros [[v Hv]|[v Hv]]; exists v; apply in_or_app; auto.
Qed.
Lemma st_t m i j : st (sp_t m) i j <-> st m j i.
Proof.
  unfold st, sp_t. cbn [s_ent]. split.
  - intros [v Hv]. apply in_map_iff in Hv as ([[a b] u] & E & Hv). cbn [fst snd] in E. injection E as -> -> ->. eauto.
  - intros [v Hv]. exists v. apply in_map_iff. exists ((j, i), v). auto.
Qed.
Lemma st_cat m m' r i j : sp_cat m m' = Ok r -> s_wf m -> st r i j <-> (if Nat.ltb i (s_rows m) then st m i j else st m' (i - s_rows m) j).
Proof.
  unfold sp_cat. destruct (Nat.eqb _ _); [|discriminate]. intros [= <-] Hw. unfold st. cbn [s_ent]. split.
  - intros [v Hv]. apply in_app_or in Hv as [Hv|Hv].
    + destruct (st_wf m i j Hw ltac:(exists v; exact Hv)) as [Hi _]. destruct (Nat.ltb_spec i (s_rows m)); [eauto|lia].
    + apply in_map_iff in Hv as ([[a b] u] & E & Hv). cbn [fst snd] in E. injection E as <- <- <-. destruct (Nat.ltb_spec (a + s_rows m) (s_rows m)); [lia|].
      rewrite Nat.add_sub. eauto.
  - destruct (Nat.ltb_spec i (s_rows m)) as [Hi|Hi].
    + intros [v Hv]. exists v. apply in_or_app. auto.
    + intros [v Hv]. exists v. apply in_or_app. right. apply in_map_iff. exists ((i - s_rows m)%nat, j, v). split; [|exact Hv]. cbn [fst snd]. do 2 f_equal. lia.
Qed.
Lemma st_kron m m' r i j i' j' : s_wf m -> s_wf m' -> s_ent m <> [] -> s_ent m' <> [] -> sparse_kron m m' = Ok r -> (i' < s_rows m')%nat -> (j' < s_cols m')%nat ->
  st r (i * s_rows m' + i') (j * s_cols m' + j') <-> st m i j /\ st m' i' j'.
Proof.
  intros Hw Hw' Hne Hne' H Hi Hj. unfold sparse_kron in H. destruct (negb _); [discriminate|].
  pose proof (coalesce_ent m Hw Hne) as N1. pose proof (coalesce_ent m' Hw' Hne') as N2.
  destruct (Nat.eqb_spec (List.length (s_ent (coalesce m))) 0) as [E|_]; [apply length_zero_iff_nil in E; contradiction|].
  destruct (Nat.eqb_spec (List.length (s_ent (coalesce m'))) 0) as [E|_]; [apply length_zero_iff_nil in E; contradiction|]. cbn [orb] in H.
  apply sp_make_ok in H as [-> _]. unfold st at 1. cbn [s_ent s_rows s_cols]. change (s_rows (coalesce m')) with (s_rows m'). change (s_cols (coalesce m')) with (s_cols m').
  rewrite <- (st_coalesce m i j Hw), <- (st_coalesce m' i' j' Hw'). pose proof (wf_coalesce m') as Hwc. unfold s_wf in Hwc. rewrite Forall_forall in Hwc. split.
  - intros [v Hv]. apply in_flat_map in Hv as ([[a b] u] & Ha & Hv). apply in_map_iff in Hv as ([[c d] u'] & E & Hc). cbn [fst snd] in E.
    specialize (Hwc _ Hc). apply in_size_spec in Hwc. cbn [fst snd] in Hwc. change (s_rows (coalesce m')) with (s_rows m') in Hwc. change (s_cols (coalesce m')) with (s_cols m') in Hwc.
    assert (E1 : (a * s_rows m' + c = i * s_rows m' + i')%nat) by congruence. assert (E2 : (b * s_cols m' + d = j * s_cols m' + j')%nat) by congruence.
    apply divmod_uniq in E1 as [-> ->]; [|lia|lia]. apply divmod_uniq in E2 as [-> ->]; [|lia|lia]. split; unfold st; eauto.
  - intros [[u Hu] [u' Hu']]. eexists. apply in_flat_map. exists ((i, j), u). split; [exact Hu|]. apply in_map_iff. exists ((i', j'), u'). split; [reflexivity|exact Hu'].
Qed.
Lemma st_diag g krows w off D r c : (0 < krows)%nat -> (0 < w)%nat -> (- Z.of_nat krows < off)%Z -> (off < Z.of_nat w)%Z ->
  sparse_diag g (repeat (kone (c := K)) (Nat.min krows w)) off krows w = Ok D -> (r < krows)%nat -> (c < w)%nat ->
  st D r c <-> (Z.of_nat c - Z.of_nat r = off)%Z.
Proof.
  intros Hk Hw Ho1 Ho2 H Hr Hc. unfold sparse_diag in H.
  replace (map _ (seq 0 (Datatypes.length (repeat (kone (c := K)) (Nat.min krows w))))) with (diag_ent (K := K) (Nat.min krows w) off) in H.
  2: { unfold diag_ent. rewrite repeat_length. apply map_ext_in. intros i Hi. apply in_seq in Hi. f_equal.
       rewrite (nth_indep _ _ 1) by (rewrite repeat_length; lia). symmetry. apply nth_repeat. }
  apply rbind_ok in H as (l1 & E1 & H). apply rbind_ok in H as (l2 & E2 & H). apply sp_make_ok in H as [-> _]. unfold st. cbn [s_ent].
  unfold mask_rows in E1. unfold mask_cols in E2. destruct (diag_ent (Nat.min krows w) off) as [|d0 dl] eqn:Ed; [discriminate|]. rewrite <- Ed in E1. apply (f_equal (fun r => match r with Ok x => x | _ => [] end)) in E1. cbn in E1.
  destruct l1 as [|d1 dl1] eqn:Ed1; [discriminate|]. rewrite <- Ed1 in E2, E1. apply (f_equal (fun r => match r with Ok x => x | _ => [] end)) in E2. cbn in E2. subst l2. split.
  - intros [v Hv]. apply filter_In in Hv as [Hv _]. rewrite <- E1 in Hv. apply filter_In in Hv as [Hv _]. apply in_diag in Hv as (i & Hi & E). injection E as -> -> _. lia.
  - intros E. exists 1. apply filter_In. cbn [fst snd]. split; [|apply Nat.ltb_lt; lia]. rewrite <- E1. apply filter_In. cbn [fst snd]. split; [|apply Nat.ltb_lt; lia].
    apply in_diag. exists (Nat.min r c). split; [lia|]. f_equal. f_equal; lia.
Qed.
Lemma st_select m rows r i j : select_rows m rows = Ok r -> s_wf m -> (i < List.length rows)%nat -> st r i j <-> st m (nth i rows 0%nat) j.
Proof.
  intros Er Hw Hi. destruct (select_rows_ok m rows r Er Hw) as (_ & _ & _ & _ & Hin & _). unfold select_rows in Er. rewrite sp_make_run in Er; [cbn [rbind] in Er|].
  2:{ intros e He. apply in_map_iff in He as ([p q] & <- & Hp). cbn [fst snd]. split; [apply in_combine_l, in_seq in Hp; lia|apply in_combine_r in Hp; auto]. }
  assert (Hsel : s_wf (mkS (s_tag m) (List.length rows) (s_rows m) (map (fun p => (fst p, snd p, kone (c := K))) (combine (seq 0 (List.length rows)) rows)))).
  { unfold s_wf. cbn [s_ent s_rows s_cols]. apply Forall_forall. intros e He. apply in_map_iff in He as ([p q] & <- & Hp). apply in_size_spec. cbn [fst snd]. split; [apply in_combine_l, in_seq in Hp; lia|apply in_combine_r in Hp; auto]. }
  unfold st. rewrite (sp_mm_stored _ _ _ i j Er Hsel Hw). cbn [s_ent]. split.
  - intros (q & u & v & H1 & H2). apply in_map_iff in H1 as ([p q'] & E & Hp). cbn [fst snd] in E. injection E as -> -> _.
    assert (Hq : q = nth i rows 0%nat).
    { clear - Hp. assert (G : forall s, In (s + i, q)%nat (combine (seq s (List.length rows)) rows) -> q = nth i rows 0%nat).
      { clear Hp. revert i. induction rows as [|a l IH]; intros k s H; [destruct H|]. cbn [List.length seq combine] in H. destruct H as [[= E1 E2]|H].
        - assert (k = 0)%nat by lia. subst k. subst. reflexivity.
        - destruct k as [|k]; [apply in_combine_l, in_seq in H; lia|]. cbn [nth]. apply (IH k (S s)). replace (S s + k)%nat with (s + S k)%nat by lia. exact H. }
      apply (G 0%nat Hp). }
    subst q. eauto.
  - intros [v Hv]. exists (nth i rows 0%nat), 1, v. split; [|exact Hv]. apply in_map_iff. exists (i, nth i rows 0%nat). split; [reflexivity|].
    assert (Hn1 : nth i (combine (seq 0 (List.length rows)) rows) (0, 0)%nat = (i, nth i rows 0%nat)) by (rewrite combine_nth by apply seq_length; rewrite seq_nth by exact Hi; reflexivity).
    rewrite <- Hn1. apply nth_In. rewrite combine_length, seq_length. lia.
Qed.

(** one summand of the matrix *)
Lemma st_diag_kron g krows w off b oh h D r : (0 < krows)%nat -> (0 < w)%nat -> (- Z.of_nat krows < off)%Z -> (off < Z.of_nat w)%Z -> block_ok g oh h b ->
  sparse_diag g (repeat (kone (c := K)) (Nat.min krows w)) off krows w = Ok D -> sparse_kron D b = Ok r ->
  forall p q c k, (p < krows)%nat -> (q < oh)%nat -> (c < w)%nat -> (k < h)%nat -> st r (p * oh + q) (c * h + k) <-> (Z.of_nat c - Z.of_nat p = off)%Z /\ st b q k.
Proof.
  intros Hk Hw Ho1 Ho2 (B1 & B2 & B3 & B4 & B5) ED EK p q c k Hp Hq Hc Hkk.
  destruct (sparse_diag_ok (K := K) g krows w off Hk Hw Ho1 Ho2) as (D' & ED' & D1 & D2 & D3 & D4 & D5 & _). rewrite ED in ED'. injection ED' as <-.
  rewrite <- (st_diag g krows w off D p c Hk Hw Ho1 Ho2 ED Hp Hc). rewrite <- B2, <- B3. apply (st_kron D b r); auto; congruence.
Qed.
Lemma st_loop g krows w oh h : (0 < krows)%nat -> (0 < w)%nat -> forall (blocks : list (smat K)) di acc r, (di - Z.of_nat (List.length blocks) > - Z.of_nat krows)%Z -> (di <= Z.of_nat w)%Z ->
  Forall (block_ok g oh h) blocks -> conv2d_loop g (repeat (kone (c := K)) (Nat.min krows w)) di krows w blocks acc = Ok r ->
  forall p q c k, (p < krows)%nat -> (q < oh)%nat -> (c < w)%nat -> (k < h)%nat ->
    st r (p * oh + q) (c * h + k) <-> st acc (p * oh + q) (c * h + k) \/ exists i, (i < List.length blocks)%nat /\ (Z.of_nat c - Z.of_nat p = di - 1 - Z.of_nat i)%Z /\ st (nth i blocks (mkS g 0 0 [])) q k.
Proof.
  intros Hk Hw. induction blocks as [|b blocks IH]; intros di acc r Hlo Hhi HB H p q c k Hp Hq Hc Hkk; cbn [conv2d_loop] in H.
  - injection H as <-. split; [auto|]. intros [H|(i & Hi & _)]; [exact H|]. cbn in Hi. lia.
  - cbn [List.length] in Hlo. apply rbind_ok in H as (D & ED & H). apply rbind_ok in H as (k1 & EK & H). apply rbind_ok in H as (acc' & EA & H).
    rewrite (IH (di - 1)%Z acc' r) by (auto; try lia; exact (Forall_inv_tail HB)). rewrite (st_add _ _ _ _ _ EA).
    rewrite (st_diag_kron g krows w (di - 1)%Z b oh h D k1) by (auto; try lia; exact (Forall_inv HB)). cbn [List.length]. split.
    + intros [[H1|[H1 H2]]|(i & Hi & H1 & H2)]; [auto| |].
      * right. exists 0%nat. split; [lia|]. split; [lia|exact H2].
      * right. exists (S i). split; [lia|]. split; [lia|exact H2].
    + intros [H1|([|i] & Hi & H1 & H2)]; [auto| |].
      * left. right. split; [lia|exact H2].
      * right. exists i. split; [lia|]. split; [lia|exact H2].
Qed.
Lemma st_conv2d t fh fw h w mode r : shp t = [fh; fw] -> (0 < fh)%nat -> (0 < fw)%nat -> (0 < h)%nat -> (0 < w)%nat -> conv_mode mode ->
  (mode = "valid"%string -> (fh <= h /\ fw <= w)%nat) -> (mode = "same"%string \/ mode = "sameshift"%string -> (fw / 2 < w)%nat) ->
  construct_conv2d_matrix t h w mode = Ok r ->
  forall p q c k, (p < conv_outlen mode fw w)%nat -> (q < conv_outlen mode fh h)%nat -> (c < w)%nat -> (k < h)%nat ->
    st r (p * conv_outlen mode fh h + q) (c * h + k) <-> (c <= p + conv_start mode fw < c + fw /\ k <= q + conv_start mode fh < k + fh)%nat.
Proof.
  intros Hs Hfh Hfw Hh Hw Hm Hv Hsame H p q c k Hp Hq Hc Hk. unfold construct_conv2d_matrix in H. rewrite Hs in H. cbn [nth] in H.
  rewrite kron_geom_ok in H by (auto; intros E; apply Hv in E; lia). cbn [rbind] in H.
  set (kr := conv_outlen mode fw w) in *. set (oh := conv_outlen mode fh h) in *. set (di := Z.of_nat (conv_start mode fw)) in *.
  assert (Hlen : forall i, List.length (filt_col t i) = fh) by (intros; unfold filt_col; rewrite map_length, seq_length, Hs; reflexivity).
  assert (Hoh : (0 < oh)%nat) by (apply outlen_pos; auto; intros E; apply Hv in E; lia).
  assert (Hkr : (0 < kr)%nat) by (apply outlen_pos; auto; intros E; apply Hv in E; lia).
  destruct (rmap_all (fun i => construct_conv_matrix (ttag t) (filt_col t i) h mode)
    (fun i b => block_ok (ttag t) oh h b /\ forall q k, (q < oh)%nat -> (k < h)%nat -> st b q k <-> (k <= q + conv_start mode fh < k + fh)%nat) (seq 0 fw)) as (blocks & EB & LB & PB).
  { intros i Hi. destruct (construct_conv_matrix_ok (ttag t) (filt_col t i) h mode) as (b & E0 & E1 & E2 & E3 & E4 & E5 & E6); auto.
    - intros E. specialize (Hlen i). rewrite E in Hlen. cbn in Hlen. lia.
    - intros E. rewrite Hlen. apply Hv in E. lia.
    - rewrite Hlen in *. exists b. split; [exact E0|]. split.
      + repeat split; auto. intros E. destruct (proj2 (E6 0%nat 0%nat)) as [v Hin]; [|rewrite E in Hin; destruct Hin].
        rewrite E2. split; [exact Hoh|]. pose proof (start_lt mode fh Hm Hfh). lia.
      + intros q' k' Hq' Hk'. unfold st. rewrite E6, E2. fold oh. tauto. }
  rewrite seq_length in LB. rewrite EB in H. cbn [rbind] in H.
  assert (Hdi : (di < Z.of_nat w)%Z /\ (di - Z.of_nat fw + 1 > - Z.of_nat kr)%Z).
  { subst di kr. pose proof (Nat.div_mod fw 2 ltac:(lia)). unfold conv_start, conv_outlen.
    destruct Hm as [->|[->|[->| ->]]]; cbn [String.eqb Ascii.eqb Bool.eqb]; [lia| | |].
    - specialize (Hsame (or_introl eq_refl)). pose proof (Nat.mod_upper_bound fw 2 ltac:(lia)). lia.
    - specialize (Hsame (or_intror eq_refl)). pose proof (Nat.mod_upper_bound fw 2 ltac:(lia)). lia.
    - specialize (Hv eq_refl). lia. }
  assert (HB : Forall (block_ok (ttag t) oh h) blocks).
  { apply Forall_forall. intros b Hb. destruct (In_nth blocks b (mkS (ttag t) 0 0 []) Hb) as (i & Hi & <-).
    apply (PB i 0%nat). rewrite seq_length. lia. }
  assert (HV : forall i, (i < fw)%nat -> st (nth i blocks (mkS (ttag t) 0 0 [])) q k <-> (k <= q + conv_start mode fh < k + fh)%nat).
  { intros i Hi. destruct (PB i 0%nat (mkS (ttag t) 0 0 [])) as [_ P]; [rewrite seq_length; lia|]. apply P; assumption. }
  clear PB EB. apply rbind_ok in H as (D & ED & H). destruct blocks as [|b0 rest]; [cbn in LB; lia|]. cbn [List.length] in LB. apply rbind_ok in H as (k0 & EK & H).
  rewrite (st_loop (ttag t) kr w oh h Hkr Hw rest di k0 r) by (auto; try lia; exact (Forall_inv_tail HB)).
  rewrite (st_diag_kron (ttag t) kr w di b0 oh h D k0) by (auto; try lia; exact (Forall_inv HB)). split.
  - intros [[H1 H2]|(i & Hi & H1 & H2)].
    + apply (HV 0%nat) in H2; lia.
    + apply (HV (S i)) in H2; lia.
  - intros [H1 H2]. destruct (Nat.eq_dec (p + conv_start mode fw) c) as [E|E].
    + left. split; [lia|]. apply (HV 0%nat); [lia|exact H2].
    + right. exists (p + conv_start mode fw - c - 1)%nat. split; [lia|]. split; [lia|]. apply (HV (S (p + conv_start mode fw - c - 1))); [lia|exact H2].
Qed.
Lemma st_strided2d t fh fw h w stride mode r : shp t = [fh; fw] -> (0 < fh)%nat -> (0 < fw)%nat -> (0 < h)%nat -> (0 < w)%nat -> (0 < stride)%nat -> conv_mode mode ->
  (mode = "valid"%string -> (fh <= h /\ fw <= w)%nat) -> (mode = "same"%string \/ mode = "sameshift"%string -> (fw / 2 < w)%nat) ->
  let s0 := if String.eqb mode "sameshift" then 1%nat else 0%nat in
  let nr := ((conv_outlen mode fh h - s0 + stride - 1) / stride)%nat in let nc := ((conv_outlen mode fw w - s0 + stride - 1) / stride)%nat in
  construct_strided_conv2d_matrix t h w stride mode = Ok r ->
  forall p q c k, (p < nc)%nat -> (q < nr)%nat -> (c < w)%nat -> (k < h)%nat ->
    st r (p * nr + q) (c * h + k) <-> (c <= s0 + p * stride + conv_start mode fw < c + fw /\ k <= s0 + q * stride + conv_start mode fh < k + fh)%nat.
Proof.
  intros Hs Hfh Hfw Hh Hw Hst Hm Hv Hsame s0 nr nc H p q c k Hp Hq Hc Hk.
  destruct (construct_conv2d_matrix_ok t fh fw h w mode Hs Hfh Hfw Hh Hw Hm Hv Hsame) as (M & EM & M1 & M2 & M3 & M4 & M5).
  pose proof (st_conv2d t fh fw h w mode M Hs Hfh Hfw Hh Hw Hm Hv Hsame EM) as HM.
  unfold construct_strided_conv2d_matrix in H. rewrite Hs in H. cbn [nth] in H.
  set (oh := conv_outlen mode fh h) in *. set (ow := conv_outlen mode fw w) in *.
  assert (Eo : (if String.eqb mode "full" then Ok ((fh + h - 1)%nat, (fw + w - 1)%nat) else if String.eqb mode "valid" then Ok ((h + 1 - fh)%nat, (w + 1 - fw)%nat)
     else if String.eqb mode "same" || String.eqb mode "sameshift" then Ok (h, w) else Raise ValueError) = Ok (oh, ow)).
  { subst oh ow. unfold conv_outlen. destruct Hm as [->|[->|[->| ->]]]; cbn [String.eqb Ascii.eqb Bool.eqb orb]; auto. do 2 f_equal; lia. }
  rewrite Eo in H. cbn [rbind] in H. rewrite EM in H. cbn [rbind] in H. destruct (Nat.eqb_spec stride 0); [lia|]. fold s0 in H.
  set (lc := arange s0 ow stride) in *. set (lr := arange s0 oh stride) in *.
  assert (Lr : List.length lr = nr) by (apply arange_length; exact Hst). assert (Lc : List.length lc = nc) by (apply arange_length; exact Hst).
  rewrite (st_select M _ r _ _ H M4) by (rewrite length_flat_grid, Lr, Lc; nia).
  rewrite <- Lr. rewrite (nth_flat_grid lc lr (fun a b => (a * oh + b)%nat)) by lia.
  subst lc lr. rewrite !arange_nth by lia. apply HM; auto.
  - apply (arange_lt s0 ow stride); [exact Hst|]. rewrite <- (arange_nth s0 ow stride p) by lia. apply nth_In. lia.
  - apply (arange_lt s0 oh stride); [exact Hst|]. rewrite <- (arange_nth s0 oh stride q) by lia. apply nth_In. lia.
Qed.
End C2S.
