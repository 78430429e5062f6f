(** Values of sparse_diag and of the two-dimensional convolution matrices. *)
From Coq Require Import List Arith ZArith Lia Bool String Ring.
From Verif Require Import Base Sums Tensor TensorFacts Accept Sparse SparseFacts SparseConv.
Import ListNotations.

Local Arguments Nat.div : simpl never.
Local Arguments Nat.modulo : simpl never.
Local Arguments Nat.ltb : simpl never.
Section SC2.
Context {K : CRing}.
Add Ring Kring : (cr_th K).
Open Scope K_scope.
Implicit Types (m : smat K) (t : tensor K).
Notation ent := (list (nat * nat * K)).

Definition diag_ent (k : nat) (off : Z) : ent :=
  map (fun i => ((i + Z.to_nat (- off))%nat, (i + Z.to_nat off)%nat, kone (c := K))) (seq 0 k).
Lemma in_diag k off e : In e (diag_ent k off) <-> exists i, (i < k)%nat /\ e = ((i + Z.to_nat (- off))%nat, (i + Z.to_nat off)%nat, kone (c := K)).
Proof.
  unfold diag_ent. rewrite in_map_iff. split.
  - intros [i [<- Hi]]. apply in_seq in Hi. exists i. split; [lia|reflexivity].
  - intros [i [Hi ->]]. exists i. split; [reflexivity|]. apply in_seq. lia.
Qed.
Lemma eg_diag_ent k off r c : ent_get (diag_ent k off) r c = if Nat.ltb (Nat.min r c) k && Z.eqb (Z.of_nat c - Z.of_nat r) off then 1 else 0.
Proof.
  unfold ent_get, diag_ent. rewrite sumL_map. rewrite sumL_seq.
  destruct (Nat.ltb_spec (Nat.min r c) k) as [Hk|Hk]; cbn [andb].
  - destruct (Z.eqb_spec (Z.of_nat c - Z.of_nat r) off) as [Ho|Ho].
    + rewrite (sumf_single k (Nat.min r c)); [|exact Hk|].
      * unfold at_pos. cbn [fst snd]. replace (Nat.eqb _ r) with true by (symmetry; apply Nat.eqb_eq; lia).
        replace (Nat.eqb _ c) with true by (symmetry; apply Nat.eqb_eq; lia). reflexivity.
      * intros i Hi Hne. unfold at_pos. cbn [fst snd]. destruct (Nat.eqb_spec (i + Z.to_nat (- off)) r); cbn [andb]; [|reflexivity].
        destruct (Nat.eqb_spec (i + Z.to_nat off) c); [|reflexivity]. exfalso. lia.
    + apply sumf_zero. intros i Hi. unfold at_pos. cbn [fst snd]. destruct (Nat.eqb_spec (i + Z.to_nat (- off)) r); cbn [andb]; [|reflexivity].
      destruct (Nat.eqb_spec (i + Z.to_nat off) c); [|reflexivity]. exfalso. lia.
  - apply sumf_zero. intros i Hi. unfold at_pos. cbn [fst snd]. destruct (Nat.eqb_spec (i + Z.to_nat (- off)) r); cbn [andb]; [|reflexivity].
    destruct (Nat.eqb_spec (i + Z.to_nat off) c); [|reflexivity]. exfalso. lia.
Qed.
Lemma eg_filter (p : nat * nat * K -> bool) (l : ent) r c : (forall e, In e l -> at_pos r c e = true -> p e = true) -> ent_get (filter p l) r c = ent_get l r c.
Proof.
  induction l as [|e l IH]; intros H; [reflexivity|]. cbn [filter]. destruct (p e) eqn:E.
  - rewrite !eg_cons, IH; [reflexivity|]. intros; apply H; [right|]; assumption.
  - rewrite eg_cons. destruct (at_pos r c e) eqn:E2; [rewrite H in E; [discriminate|left; reflexivity|exact E2]|].
    rewrite IH; [ring|]. intros; apply H; [right|]; assumption.
Qed.
(** a diagonal of ones of full length: the matrix is 1 exactly where column - row = offset *)
Lemma sparse_diag_ok g krows w off : (0 < krows)%nat -> (0 < w)%nat -> (- Z.of_nat krows < off)%Z -> (off < Z.of_nat w)%Z ->
  exists D, sparse_diag g (repeat (kone (c := K)) (Nat.min krows w)) off krows w = Ok D /\ s_tag D = g /\ s_rows D = krows /\ s_cols D = w /\ s_wf D /\ s_ent D <> [] /\
  forall r c, (r < krows)%nat -> (c < w)%nat -> mget D r c = if Z.eqb (Z.of_nat c - Z.of_nat r) off then 1 else 0.
Proof.
  intros Hk Hw Ho1 Ho2. unfold sparse_diag.
  replace (map _ (seq 0 (Datatypes.length (repeat (kone (c := K)) (Nat.min krows w))))) with (diag_ent (Nat.min krows w) off).
  2: { unfold diag_ent. rewrite repeat_length. apply map_ext_in. intros i Hi. apply in_seq in Hi. f_equal.
       rewrite (nth_indep _ _ 1) by (rewrite repeat_length; lia). symmetry. apply nth_repeat. }
  set (l := diag_ent (Nat.min krows w) off). set (i0 := 0%nat).
  set (e0 := ((i0 + Z.to_nat (- off))%nat, (i0 + Z.to_nat off)%nat, kone (c := K))).
  assert (H0 : In e0 l) by (apply in_diag; exists i0; split; [subst i0; lia|reflexivity]).
  set (l1 := filter (fun e => Nat.ltb (fst (fst e)) krows) l). set (l2 := filter (fun e => Nat.ltb (snd (fst e)) w) l1).
  assert (H1 : In e0 l1) by (apply filter_In; split; [exact H0|]; apply Nat.ltb_lt; subst e0 i0; cbn [fst snd]; lia).
  assert (H2 : In e0 l2) by (apply filter_In; split; [exact H1|]; apply Nat.ltb_lt; subst e0 i0; cbn [fst snd]; lia).
  assert (E1 : mask_rows krows l = Ok l1) by (unfold mask_rows; destruct l; [destruct H0|reflexivity]).
  assert (E2 : mask_cols w l1 = Ok l2) by (unfold mask_cols; destruct l1; [destruct H1|reflexivity]).
  rewrite E1. cbn [rbind]. rewrite E2. cbn [rbind].
  assert (Hin : forall e, In e l2 -> (fst (fst e) < krows /\ snd (fst e) < w)%nat).
  { intros e He. apply filter_In in He. destruct He as [He Hb]. apply filter_In in He. destruct He as [He Ha]. apply Nat.ltb_lt in Ha, Hb. auto. }
  rewrite (sp_make_run g krows w l2 Hin). eexists. split; [reflexivity|]. cbn [s_tag s_rows s_cols s_ent]. repeat split; auto.
  - unfold s_wf. cbn [s_ent s_rows s_cols]. apply Forall_forall. intros e He. apply in_size_spec. auto.
  - intros E. rewrite E in H2. destruct H2.
  - intros r c Hr Hc. unfold mget. cbn [s_ent]. subst l2 l1. rewrite eg_filter, eg_filter.
    + subst l. rewrite eg_diag_ent. destruct (Nat.ltb_spec (Nat.min r c) (Nat.min krows w)) as [Hm|Hm]; cbn [andb]; [reflexivity|].
      destruct (Z.eqb_spec (Z.of_nat c - Z.of_nat r) off); [|reflexivity]. exfalso. lia.
    + intros e _ He. apply at_pos_spec in He. apply Nat.ltb_lt. destruct He. lia.
    + intros e _ He. apply at_pos_spec in He. apply Nat.ltb_lt. destruct He. lia.
Qed.
(** an offset below all rows: the empty torch.max raises *)
Lemma sparse_diag_low g krows w off : (off <= - Z.of_nat krows)%Z -> sparse_diag g (repeat (kone (c := K)) (Nat.min krows w)) off krows w = Raise RuntimeError.
Proof.
  intros Ho. unfold sparse_diag.
  assert (E : forall l : ent, (forall e, In e l -> (krows <= fst (fst e))%nat) -> mask_rows krows l = Raise RuntimeError \/ mask_rows krows l = Ok []).
  { intros l Hl. destruct l as [|e l]; [left; reflexivity|right]. unfold mask_rows. f_equal.
    assert (forall l' : ent, (forall e, In e l' -> (krows <= fst (fst e))%nat) -> filter (fun e => Nat.ltb (fst (fst e)) krows) l' = []) as Hf.
    { induction l' as [|x l' IH]; intros H; [reflexivity|]. cbn [filter]. destruct (Nat.ltb_spec (fst (fst x)) krows) as [Hx|_]; [specialize (H x (or_introl eq_refl)); lia|].
      apply IH. intros; apply H; right; assumption. }
    apply Hf, Hl. }
  destruct (E (map (fun i => ((i + Z.to_nat (- off))%nat, (i + Z.to_nat off)%nat, nth i (repeat (kone (c := K)) (Nat.min krows w)) 0)) (seq 0 (List.length (repeat (kone (c := K)) (Nat.min krows w)))))) as [E'|E'];
    [|rewrite E'; reflexivity|rewrite E'; reflexivity].
  intros e He. apply in_map_iff in He. destruct He as [i [<- _]]. cbn [fst snd]. lia.
Qed.

(** ** the loop over the columns of the filter *)
Definition kron_at (Z0 : Z) (r c : nat) : K := if Z.eqb (Z.of_nat c - Z.of_nat r) Z0 then 1 else 0.
Lemma promote_refl (d : dtype) : promote d d = d.
Proof. unfold promote. destruct d; reflexivity. Qed.
Lemma coalesce_ent m : s_wf m -> s_ent m <> [] -> s_ent (coalesce m) <> [].
Proof.
  intros Ha Hn He. destruct (s_ent m) as [|[[i j] v] l] eqn:E; [congruence|].
  assert (Hin : In (i, j) (stored (s_ent m) (s_rows m) (s_cols m))).
  { apply in_stored. unfold s_wf in Ha. rewrite E in Ha. apply Forall_inv in Ha. apply in_size_spec in Ha. cbn [fst snd] in Ha.
    split; [exact Ha|]. exists v. rewrite E. left. reflexivity. }
  unfold coalesce in He. cbn [s_ent] in He. apply map_eq_nil in He. rewrite He in Hin. destruct Hin.
Qed.
Definition block_ok (g : tag) (oh h : nat) (b : smat K) : Prop := s_tag b = g /\ s_rows b = oh /\ s_cols b = h /\ s_wf b /\ s_ent b <> [].
Lemma diag_kron_ok g krows w off b oh h : (0 < krows)%nat -> (0 < w)%nat -> (- Z.of_nat krows < off)%Z -> (off < Z.of_nat w)%Z -> block_ok g oh h b ->
  exists r, (let* D := sparse_diag g (repeat (kone (c := K)) (Nat.min krows w)) off krows w in sparse_kron D b) = Ok r /\ s_tag r = g /\ s_rows r = (krows * oh)%nat /\ s_cols r = (w * h)%nat /\ s_wf r /\
  forall p q c k, (p < krows)%nat -> (q < oh)%nat -> (c < w)%nat -> (k < h)%nat -> mget r (p * oh + q) (c * h + k) = kron_at off p c * mget b q k.
Proof.
  intros Hk Hw H1 H2 (B1 & B2 & B3 & B4 & B5). destruct (sparse_diag_ok g krows w off Hk Hw H1 H2) as (D & ED & D1 & D2 & D3 & D4 & D5 & D6).
  rewrite ED. cbn [rbind]. destruct (sparse_kron_run D b) as [r Er]; [congruence|assumption|assumption|right; split; apply coalesce_ent; assumption|].
  exists r. destruct (sparse_kron_ok D b r D4 B4 Er) as (R1 & R2 & R3 & R4 & R5 & R6 & _). rewrite D2, B2 in R1. rewrite D3, B3 in R2.
  split; [exact Er|]. repeat split; auto.
  - specialize (R6 (coalesce_ent _ D4 D5) (coalesce_ent _ B4 B5)). rewrite D1, B1, promote_refl in R6. rewrite D1 in R5. destruct (s_tag r), g. cbn in *. congruence.
  - intros p q c k Hp Hq Hc Hkk. rewrite B2, B3 in R4. rewrite R4 by assumption. rewrite D6 by assumption. reflexivity.
Qed.
Lemma conv2d_loop_ok g krows w oh h : (0 < krows)%nat -> (0 < w)%nat -> forall (blocks : list (smat K)) di acc, (di - Z.of_nat (List.length blocks) > - Z.of_nat krows)%Z -> (di <= Z.of_nat w)%Z ->
  Forall (block_ok g oh h) blocks -> s_tag acc = g -> s_rows acc = (krows * oh)%nat -> s_cols acc = (w * h)%nat -> s_wf acc ->
  exists r, conv2d_loop g (repeat (kone (c := K)) (Nat.min krows w)) di krows w blocks acc = Ok r /\
  s_tag r = g /\ s_rows r = (krows * oh)%nat /\ s_cols r = (w * h)%nat /\ s_wf r /\
  forall p q c k, (p < krows)%nat -> (q < oh)%nat -> (c < w)%nat -> (k < h)%nat ->
    mget r (p * oh + q) (c * h + k) = mget acc (p * oh + q) (c * h + k) +
      sumf (List.length blocks) (fun i => kron_at (di - 1 - Z.of_nat i) p c * mget (nth i blocks (mkS g 0 0 [])) q k).
Proof.
  intros Hk Hw. induction blocks as [|b blocks IH]; intros di acc Hlo Hhi HB A1 A2 A3 A4.
  - exists acc. cbn [conv2d_loop]. repeat split; auto. intros. cbn [List.length sumf]. ring.
  - cbn [conv2d_loop]. cbn [List.length] in Hlo.
    destruct (diag_kron_ok g krows w (di - 1)%Z b oh h Hk Hw) as (k1 & E1 & K1 & K2 & K3 & K4 & K5); [lia|lia|exact (Forall_inv HB)|].
    apply rbind_ok in E1. destruct E1 as (D & ED & EK). rewrite ED. cbn [rbind]. rewrite EK. cbn [rbind].
    rewrite sp_add_run by congruence. cbn [rbind].
    destruct (IH (di - 1)%Z (mkS (s_tag acc) (s_rows acc) (s_cols acc) (s_ent acc ++ s_ent k1))) as (r & Er & R1 & R2 & R3 & R4 & R5); cbn [s_tag s_rows s_cols]; auto; try lia.
    + exact (Forall_inv_tail HB).
    + apply wf_app; [exact A4|]. unfold s_wf in *. cbn [s_ent s_rows s_cols]. rewrite A2, A3. rewrite K2, K3 in K4. exact K4.
    + exists r. repeat split; auto. intros p q c k Hp Hq Hc Hkk. rewrite R5 by assumption. cbn [List.length]. rewrite sumf_S_first.
      unfold mget at 1. cbn [s_ent]. rewrite eg_app. fold (mget acc (p * oh + q) (c * h + k)) (mget k1 (p * oh + q) (c * h + k)).
      rewrite K5 by assumption. cbn [nth]. replace (di - 1 - Z.of_nat 0)%Z with (di - 1)%Z by lia.
      rewrite (sumf_ext _ (fun i => kron_at (di - 1 - 1 - Z.of_nat i) p c * _) (fun i => kron_at (di - 1 - Z.of_nat (S i)) p c * mget (nth i blocks (mkS g 0 0 [])) q k)).
      * ring.
      * intros i Hi. f_equal. f_equal. lia.
Qed.

(** ** the whole matrix *)
Definition fget2 t (a b : Z) : K := if ((0 <=? a) && (a <? Z.of_nat (nth 0 (shp t) 0%nat)) && (0 <=? b) && (b <? Z.of_nat (nth 1 (shp t) 0%nat)))%Z then get t [Z.to_nat a; Z.to_nat b] else 0.
Lemma zget_filt_col t fh fw i z : shp t = [fh; fw] -> (i < fw)%nat -> zget (filt_col t i) z = fget2 t z (Z.of_nat i).
Proof.
  intros Hs Hi. unfold fget2, filt_col. rewrite Hs. cbn [nth]. unfold zget.
  destruct (Z.ltb_spec z 0) as [Hz|Hz].
  - destruct (Z.leb_spec 0 z); [lia|]. reflexivity.
  - destruct (Z.leb_spec 0 z); [|lia]. destruct (Z.ltb_spec z (Z.of_nat fh)); cbn [andb].
    + destruct (Z.leb_spec 0 (Z.of_nat i)); [|lia]. destruct (Z.ltb_spec (Z.of_nat i) (Z.of_nat fw)); [|lia]. cbn [andb].
      rewrite nth_map_seq by lia. rewrite Nat2Z.id. reflexivity.
    + apply nth_overflow. rewrite map_length, seq_length. lia.
Qed.
Lemma kron_geom_ok mode fw w : conv_mode mode -> (0 < fw)%nat -> (0 < w)%nat -> (mode = "valid"%string -> (fw <= w)%nat) ->
  kron_geom mode fw w = Ok (Z.of_nat (conv_start mode fw), conv_outlen mode fw w).
Proof.
  intros Hm Hf Hw Hv. unfold kron_geom, conv_start, conv_outlen. destruct Hm as [->|[->|[->| ->]]]; cbn [String.eqb Ascii.eqb Bool.eqb orb].
  - reflexivity.
  - do 2 f_equal. pose proof (Nat.div_mod fw 2 ltac:(lia)). lia.
  - do 2 f_equal. pose proof (Nat.div_mod fw 2 ltac:(lia)). lia.
  - do 2 f_equal. lia.
Qed.
Lemma rmap_all {A B} (f : A -> result B) (P : A -> B -> Prop) (l : list A) : (forall a, In a l -> exists b, f a = Ok b /\ P a b) ->
  exists bs, rmap f l = Ok bs /\ List.length bs = List.length l /\ forall i da db, (i < List.length l)%nat -> P (nth i l da) (nth i bs db).
Proof.
  induction l as [|a l IH]; intros H.
  - exists []. repeat split. intros i da db Hi. cbn in Hi. lia.
  - destruct (H a (or_introl eq_refl)) as (b & Eb & Pb). destruct IH as (bs & Ebs & El & Pbs); [intros; apply H; right; assumption|].
    exists (b :: bs). cbn [rmap]. rewrite Eb. cbn [rbind]. rewrite Ebs. cbn [rbind]. repeat split; [cbn; congruence|].
    intros [|i] da db Hi; cbn [nth]; [exact Pb|]. apply Pbs. cbn in Hi. lia.
Qed.
Lemma start_lt mode L : conv_mode mode -> (0 < L)%nat -> (conv_start mode L < L)%nat.
Proof. intros Hm HL. pose proof (start_le L HL). unfold conv_start. destruct Hm as [->|[->|[->| ->]]]; cbn [String.eqb Ascii.eqb Bool.eqb]; lia. Qed.
Lemma outlen_pos mode L n : conv_mode mode -> (0 < L)%nat -> (0 < n)%nat -> (mode = "valid"%string -> (L <= n)%nat) -> (0 < conv_outlen mode L n)%nat.
Proof. intros Hm HL Hn Hv. unfold conv_outlen. destruct Hm as [->|[->|[->| ->]]]; cbn [String.eqb Ascii.eqb Bool.eqb]; try lia; specialize (Hv eq_refl); lia. Qed.
Lemma construct_conv2d_matrix_ok t fh fw h w mode : shp t = [fh; fw] -> (0 < fh)%nat -> (0 < fw)%nat -> (0 < h)%nat -> (0 < w)%nat -> conv_mode mode ->
  (mode = "valid"%string -> (fh <= h /\ fw <= w)%nat) -> (mode = "same"%string \/ mode = "sameshift"%string -> (fw / 2 < w)%nat) ->
  exists r, construct_conv2d_matrix t h w mode = Ok r /\ s_tag r = ttag t /\ s_rows r = (conv_outlen mode fw w * conv_outlen mode fh h)%nat /\ s_cols r = (w * h)%nat /\ s_wf r /\
  forall p q c k, (p < conv_outlen mode fw w)%nat -> (q < conv_outlen mode fh h)%nat -> (c < w)%nat -> (k < h)%nat ->
    mget r (p * conv_outlen mode fh h + q) (c * h + k) =
    fget2 t (Z.of_nat q + Z.of_nat (conv_start mode fh) - Z.of_nat k) (Z.of_nat p + Z.of_nat (conv_start mode fw) - Z.of_nat c).
Proof.
  intros Hs Hfh Hfw Hh Hw Hm Hv Hsame. unfold construct_conv2d_matrix. rewrite Hs. cbn [nth].
  rewrite kron_geom_ok by (auto; intros E; apply Hv in E; lia). cbn [rbind].
  set (kr := conv_outlen mode fw w). set (oh := conv_outlen mode fh h). set (di := Z.of_nat (conv_start mode fw)).
  assert (Hlen : forall i, List.length (filt_col t i) = fh) by (intros; unfold filt_col; rewrite map_length, seq_length, Hs; reflexivity).
  assert (Hoh : (0 < oh)%nat) by (apply outlen_pos; auto; intros E; apply Hv in E; lia).
  assert (Hkr : (0 < kr)%nat) by (apply outlen_pos; auto; intros E; apply Hv in E; lia).
  destruct (rmap_all (fun i => construct_conv_matrix (ttag t) (filt_col t i) h mode)
    (fun i b => block_ok (ttag t) oh h b /\ forall q k, (q < oh)%nat -> (k < h)%nat -> mget b q k = zget (filt_col t i) (Z.of_nat q + Z.of_nat (conv_start mode fh) - Z.of_nat k)) (seq 0 fw)) as (blocks & EB & LB & PB).
  { intros i Hi. destruct (construct_conv_matrix_ok (ttag t) (filt_col t i) h mode) as (b & E0 & E1 & E2 & E3 & E4 & E5 & E6); auto.
    - intros E. specialize (Hlen i). rewrite E in Hlen. cbn in Hlen. lia.
    - intros E. rewrite Hlen. apply Hv in E. lia.
    - rewrite Hlen in *. exists b. split; [exact E0|]. split.
      + repeat split; auto. intros E. destruct (proj2 (E6 0%nat 0%nat)) as [v Hin]; [|rewrite E in Hin; destruct Hin].
        rewrite E2. split; [exact Hoh|]. pose proof (start_lt mode fh Hm Hfh). lia.
      + intros q k Hq Hk. rewrite E5; auto. rewrite E2. exact Hq. }
  rewrite seq_length in LB. specialize (PB). rewrite EB. cbn [rbind].
  assert (Hdi : (di < Z.of_nat w)%Z /\ (di - Z.of_nat fw + 1 > - Z.of_nat kr)%Z).
  { subst di kr. pose proof (Nat.div_mod fw 2 ltac:(lia)). unfold conv_start, conv_outlen.
    destruct Hm as [->|[->|[->| ->]]]; cbn [String.eqb Ascii.eqb Bool.eqb]; [lia| | |].
    - specialize (Hsame (or_introl eq_refl)). pose proof (Nat.mod_upper_bound fw 2 ltac:(lia)). lia.
    - specialize (Hsame (or_intror eq_refl)). pose proof (Nat.mod_upper_bound fw 2 ltac:(lia)). lia.
    - specialize (Hv eq_refl). lia. }
  assert (HB : Forall (block_ok (ttag t) oh h) blocks).
  { apply Forall_forall. intros b Hb. destruct (In_nth blocks b (mkS (ttag t) 0 0 []) Hb) as (i & Hi & <-).
    apply (PB i 0%nat). rewrite seq_length. lia. }
  assert (HV : forall i q k, (i < fw)%nat -> (q < oh)%nat -> (k < h)%nat -> mget (nth i blocks (mkS (ttag t) 0 0 [])) q k = fget2 t (Z.of_nat q + Z.of_nat (conv_start mode fh) - Z.of_nat k) (Z.of_nat i)).
  { intros i q k Hi Hq Hk. destruct (PB i 0%nat (mkS (ttag t) 0 0 [])) as [_ P]; [rewrite seq_length; lia|]. rewrite P by assumption.
    rewrite seq_nth by lia. apply (zget_filt_col t fh fw); auto. }
  clear PB EB. destruct blocks as [|b0 rest]; [cbn in LB; lia|]. cbn [List.length] in LB.
  destruct (diag_kron_ok (ttag t) kr w di b0 oh h Hkr Hw) as (k0 & E0 & K1 & K2 & K3 & K4 & K5); [lia|lia|exact (Forall_inv HB)|].
  apply rbind_ok in E0. destruct E0 as (D & ED & EK). rewrite ED. cbn [rbind]. rewrite EK. cbn [rbind].
  destruct (conv2d_loop_ok (ttag t) kr w oh h Hkr Hw rest di k0) as (r & Er & R1 & R2 & R3 & R4 & R5); auto; try lia.
  { exact (Forall_inv_tail HB). }
  exists r. split; [exact Er|]. repeat split; auto. intros p q c k Hp Hq Hc Hk. rewrite R5, K5 by assumption.
  assert (E : kron_at di p c * mget b0 q k + sumf (List.length rest) (fun i => kron_at (di - 1 - Z.of_nat i) p c * mget (nth i rest (mkS (ttag t) 0 0 [])) q k) =
    sumf fw (fun i => kron_at (di - Z.of_nat i) p c * fget2 t (Z.of_nat q + Z.of_nat (conv_start mode fh) - Z.of_nat k) (Z.of_nat i))).
  { rewrite <- LB, sumf_S_first. f_equal.
    - rewrite <- (HV 0%nat q k) by (auto; lia). cbn [nth]. do 2 f_equal. lia.
    - apply sumf_ext. intros i Hi. rewrite <- (HV (S i) q k) by (auto; lia). cbn [nth]. do 2 f_equal. lia. }
  rewrite E. clear E. set (z := (Z.of_nat p + di - Z.of_nat c)%Z). fold di. fold z.
  destruct (Z.ltb_spec z 0) as [Hz|Hz]; [|destruct (Z.ltb_spec z (Z.of_nat fw)) as [Hz'|Hz']].
  - rewrite sumf_zero; [unfold fget2; destruct (Z.leb_spec 0 z); [lia|]; rewrite andb_false_r; reflexivity|].
    intros i Hi. unfold kron_at. destruct (Z.eqb_spec (Z.of_nat c - Z.of_nat p) (di - Z.of_nat i)); [subst z; lia|ring].
  - rewrite (sumf_single fw (Z.to_nat z)); [|lia|].
    + unfold kron_at. destruct (Z.eqb_spec (Z.of_nat c - Z.of_nat p) (di - Z.of_nat (Z.to_nat z))); [|subst z; lia]. rewrite Z2Nat.id by lia. ring.
    + intros i Hi Hne. unfold kron_at. destruct (Z.eqb_spec (Z.of_nat c - Z.of_nat p) (di - Z.of_nat i)); [subst z; lia|ring].
  - rewrite sumf_zero; [unfold fget2; rewrite Hs; cbn [nth]; destruct (Z.ltb_spec z (Z.of_nat fw)); [lia|]; rewrite andb_false_r; reflexivity|].
    intros i Hi. unfold kron_at. destruct (Z.eqb_spec (Z.of_nat c - Z.of_nat p) (di - Z.of_nat i)); [subst z; lia|ring].
Qed.
(** "same" with an image narrower than half the filter: sparse_diag takes the maximum of nothing *)
Lemma conv2d_loop_raise g krows w : forall (blocks : list (smat K)) di acc, (di - Z.of_nat (List.length blocks) <= - Z.of_nat krows)%Z -> (- Z.of_nat krows < di)%Z ->
  (forall b off D, In b blocks -> sparse_diag g (repeat (kone (c := K)) (Nat.min krows w)) off krows w = Ok D -> exists r, sparse_kron D b = Ok r /\ s_rows r = s_rows acc /\ s_cols r = s_cols acc) ->
  exists e, conv2d_loop g (repeat (kone (c := K)) (Nat.min krows w)) di krows w blocks acc = Raise e.
Proof.
  induction blocks as [|b blocks IH]; intros di acc Hlo Hdi Hb; [cbn in Hlo; lia|]. cbn [conv2d_loop].
  destruct (sparse_diag g (repeat 1 (Nat.min krows w)) (di - 1) krows w) as [D|e] eqn:ED; cbn [rbind]; [|eauto].
  destruct (Hb b (di - 1)%Z D (or_introl eq_refl) ED) as (r & Er & R1 & R2). rewrite Er. cbn [rbind].
  rewrite sp_add_run by assumption. cbn [rbind].
  destruct (Z.eq_dec (di - 1) (- Z.of_nat krows)) as [E|E].
  - rewrite sparse_diag_low in ED by lia. discriminate.
  - apply IH; [cbn [List.length] in Hlo; lia|lia|]. cbn [s_rows s_cols]. intros; eapply Hb; [right; eassumption|eassumption].
Qed.

(** the strided variant *)
Lemma nth_flat_grid (l1 l2 : list nat) (f : nat -> nat -> nat) a b : (a < List.length l1)%nat -> (b < List.length l2)%nat ->
  nth (a * List.length l2 + b) (flat_map (fun x => map (f x) l2) l1) 0%nat = f (nth a l1 0%nat) (nth b l2 0%nat).
Proof.
  revert a. induction l1 as [|x l1 IH]; intros a Ha Hb; [cbn in Ha; lia|]. cbn [flat_map]. destruct a as [|a].
  - rewrite app_nth1 by (rewrite map_length; lia). cbn [Nat.mul Nat.add nth]. rewrite (nth_indep _ _ (f x 0%nat)) by (rewrite map_length; exact Hb). apply map_nth.
  - rewrite app_nth2 by (rewrite map_length; cbn; lia). rewrite map_length. replace (S a * List.length l2 + b - List.length l2)%nat with (a * List.length l2 + b)%nat by (cbn; lia).
    cbn [nth]. apply IH; [cbn in Ha; lia|exact Hb].
Qed.
Lemma length_flat_grid (l1 l2 : list nat) (f : nat -> nat -> nat) : List.length (flat_map (fun x => map (f x) l2) l1) = (List.length l1 * List.length l2)%nat.
Proof. induction l1 as [|x l1 IH]; [reflexivity|]. cbn [flat_map List.length Nat.mul]. rewrite app_length, map_length, IH. reflexivity. Qed.
Lemma construct_strided_conv2d_matrix_ok t fh fw h w stride mode : shp t = [fh; fw] -> (0 < fh)%nat -> (0 < fw)%nat -> (0 < h)%nat -> (0 < w)%nat -> (0 < stride)%nat -> conv_mode mode ->
  (mode = "valid"%string -> (fh <= h /\ fw <= w)%nat) -> (mode = "same"%string \/ mode = "sameshift"%string -> (fw / 2 < w)%nat) ->
  let s0 := if String.eqb mode "sameshift" then 1%nat else 0%nat in
  let nr := ((conv_outlen mode fh h - s0 + stride - 1) / stride)%nat in let nc := ((conv_outlen mode fw w - s0 + stride - 1) / stride)%nat in
  exists r, construct_strided_conv2d_matrix t h w stride mode = Ok r /\ s_tag r = ttag t /\ s_rows r = (nc * nr)%nat /\ s_cols r = (w * h)%nat /\ s_wf r /\
  forall p q c k, (p < nc)%nat -> (q < nr)%nat -> (c < w)%nat -> (k < h)%nat ->
    mget r (p * nr + q) (c * h + k) =
    fget2 t (Z.of_nat (s0 + q * stride) + Z.of_nat (conv_start mode fh) - Z.of_nat k) (Z.of_nat (s0 + p * stride) + Z.of_nat (conv_start mode fw) - Z.of_nat c).
Proof.
  intros Hs Hfh Hfw Hh Hw Hst Hm Hv Hsame s0 nr nc.
  destruct (construct_conv2d_matrix_ok t fh fw h w mode Hs Hfh Hfw Hh Hw Hm Hv Hsame) as (M & EM & M1 & M2 & M3 & M4 & M5).
  unfold construct_strided_conv2d_matrix. rewrite Hs. cbn [nth].
  set (oh := conv_outlen mode fh h) in *. set (ow := conv_outlen mode fw w) in *.
  assert (Eo : (if String.eqb mode "full" then Ok ((fh + h - 1)%nat, (fw + w - 1)%nat) else if String.eqb mode "valid" then Ok ((h + 1 - fh)%nat, (w + 1 - fw)%nat)
     else if String.eqb mode "same" || String.eqb mode "sameshift" then Ok (h, w) else Raise ValueError) = Ok (oh, ow)).
  { subst oh ow. unfold conv_outlen. destruct Hm as [->|[->|[->| ->]]]; cbn [String.eqb Ascii.eqb Bool.eqb orb]; auto. do 2 f_equal; lia. }
  rewrite Eo. cbn [rbind]. rewrite EM. cbn [rbind]. destruct (Nat.eqb_spec stride 0); [lia|]. fold s0.
  set (lc := arange s0 ow stride). set (lr := arange s0 oh stride).
  assert (Lr : List.length lr = nr) by (apply arange_length; exact Hst). assert (Lc : List.length lc = nc) by (apply arange_length; exact Hst).
  assert (Hin : forall i, In i (flat_map (fun a => map (fun b => (a * oh + b)%nat) lr) lc) -> (i < s_rows M)%nat).
  { intros i Hi. apply in_flat_map in Hi. destruct Hi as (a & Ha & Hi). apply in_map_iff in Hi. destruct Hi as (b & <- & Hb).
    apply arange_lt in Ha; [|exact Hst]. apply arange_lt in Hb; [|exact Hst]. rewrite M2. nia. }
  destruct (select_rows_run M _ Hin) as [r Er]. exists r. destruct (select_rows_ok M _ r Er M4) as (R1 & R2 & R3 & R4 & _ & R5).
  rewrite length_flat_grid, Lr, Lc in R1, R5. split; [exact Er|]. repeat split; auto; try congruence.
  intros p q c k Hp Hq Hc Hk. rewrite R5 by nia. rewrite <- Lr. rewrite (nth_flat_grid lc lr (fun a b => (a * oh + b)%nat)) by lia.
  subst lc lr. rewrite !arange_nth by lia. apply M5; auto.
  - apply (arange_lt s0 ow stride); [exact Hst|]. rewrite <- (arange_nth s0 ow stride p) by lia. apply nth_In. lia.
  - apply (arange_lt s0 oh stride); [exact Hst|]. rewrite <- (arange_nth s0 oh stride q) by lia. apply nth_In. lia.
Qed.
End SC2.
