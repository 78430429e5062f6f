(** The losses of learnable filter banks: what they compute and when they vanish. *)
From Coq Require Import List Arith ZArith Lia Bool.
From Verif Require Import Base Sums Tensor TensorFacts Util Spec SpecMat Learn Examples PRKernel.
Import ListNotations.

Section LF.
Context {K : CRing}.
Add Ring Kring : (cr_th K).
Implicit Types (a b : list K).
Implicit Type w : wavelet K.
Local Open Scope K_scope.

Lemma bcast_ok op a b : List.length a = List.length b -> bcast op a b = Ok (map2 op a b).
Proof. intros H. unfold bcast. rewrite (proj2 (Nat.eqb_eq _ _) H). reflexivity. Qed.
Lemma map2_nth (op : K -> K -> K) a : forall b i, List.length a = List.length b -> (i < List.length a)%nat ->
  nth i (map2 op a b) 0 = op (nth i a 0) (nth i b 0).
Proof. induction a as [|x a IH]; intros [|y b] i H Hi; cbn in *; try lia. destruct i; [reflexivity|]. apply IH; lia. Qed.
Lemma map2_len (op : K -> K -> K) a : forall b, List.length a = List.length b -> List.length (map2 op a b) = List.length a.
Proof. induction a as [|x a IH]; intros [|y b] H; cbn in *; try lia. rewrite IH; lia. Qed.
Lemma map2_map (op : K -> K -> K) {A} (f g : A -> K) l : map2 op (map f l) (map g l) = map (fun x => op (f x) (g x)) l.
Proof. induction l as [|x l IH]; cbn; [reflexivity|]. rewrite IH. reflexivity. Qed.
Lemma list_of_nth a : a = map (fun i => nth i a 0) (seq 0 (List.length a)).
Proof.
  induction a as [|x a IH]; [reflexivity|]. cbn [List.length seq map]. cbn [nth]. f_equal. rewrite <- seq_shift, map_map. exact IH.
Qed.
Lemma kpow_sgn n : kpow (K := K) (- (1)) n = sgn n 1.
Proof.
  induction n as [|n IH]; [reflexivity|]. cbn [kpow]. rewrite IH. unfold sgn. rewrite Nat.even_succ, <- Nat.negb_even.
  destruct (Nat.even n); cbn; ring.
Qed.
Lemma mask_len L : List.length (mask (K := K) L) = L.
Proof. unfold mask. rewrite rev_length, map_length, seq_length. reflexivity. Qed.
Lemma mask_nth L i : (i < L)%nat -> nth i (mask (K := K) L) 0 = sgn (L - 1 - i) 1.
Proof.
  intros Hi. unfold mask. rewrite rev_nth by (rewrite map_length, seq_length; exact Hi). rewrite map_length, seq_length.
  rewrite (nth_indep _ 0 (kpow (- (1)) 0)) by (rewrite map_length, seq_length; lia). rewrite map_nth, seq_nth by lia. rewrite kpow_sgn. f_equal. lia.
Qed.

(** conv1d with full padding and a flipped kernel is polynomial multiplication *)
Lemma conv1d_full a b L : (0 < L)%nat -> List.length a = L -> List.length b = L ->
  conv1d 1 (L - 1) a (rev b) = Ok (map (convc a b) (seq 0 (2 * L - 1))).
Proof.
  intros HL Ha Hb. unfold conv1d. rewrite rev_length, Ha, Hb. 
  replace (Nat.ltb 0 L && Nat.leb L (L + 2 * (L - 1)))%bool with true by (symmetry; apply andb_true_iff; split; [apply Nat.ltb_lt|apply Nat.leb_le]; lia).
  replace ((L + 2 * (L - 1) - L) / 1 + 1)%nat with (2 * L - 1)%nat by (rewrite Nat.div_1_r; lia).
  f_equal. apply map_ext_in. intros k Hk. apply in_seq in Hk. rewrite sumf_rev. unfold convc.
  transitivity (sumf L (fun j => zget a (Z.of_nat k - Z.of_nat j) * nth j b 0)).
  { apply sumf_ext. intros j Hj. rewrite rev_nth by lia. rewrite Hb. f_equal; [|f_equal; lia]. f_equal. lia. }
  transitivity (sumf (S k) (fun j => zget a (Z.of_nat k - Z.of_nat j) * nth j b 0)).
  - destruct (Nat.le_gt_cases L (S k)).
    + symmetry. apply sumf_extend; [lia|]. intros j Hj. rewrite (nth_overflow b) by lia. ring.
    + apply sumf_extend; [lia|]. intros j Hj. rewrite zget_neg by lia. ring.
  - rewrite sumf_rev. apply sumf_ext. intros j Hj. replace (Z.of_nat k - Z.of_nat (S k - 1 - j))%Z with (Z.of_nat j) by lia.
    rewrite zget_nat. do 2 f_equal. lia.
Qed.
Lemma sgn_mul n (x : K) : sgn n 1 * x = sgn n x.
Proof. unfold sgn. destruct (Nat.even n); ring. Qed.
Lemma sgn_add n m (x : K) : sgn n (sgn m x) = sgn (n + m) x.
Proof. unfold sgn. rewrite Nat.even_add. destruct (Nat.even n), (Nat.even m); cbn; ring. Qed.
Lemma sgn_sum n m (f : nat -> K) : sgn n (sumf m f) = sumf m (fun i => sgn n (f i)).
Proof. unfold sgn. destruct (Nat.even n); [reflexivity|]. induction m as [|m IH]; cbn; [ring|]. rewrite <- IH. ring. Qed.
Lemma sgn_mod n m (x : K) : Nat.even n = Nat.even m -> sgn n x = sgn m x.
Proof. unfold sgn. intros ->. reflexivity. Qed.
Lemma convc_mask a b L k : List.length a = L -> (0 < L)%nat -> convc (map2 kmul a (mask L)) b k = sgn (L - 1) (aliasc a b k).
Proof.
  intros Ha HL. unfold convc, aliasc. rewrite sgn_sum. apply sumf_ext. intros i Hi. rewrite sgn_add.
  destruct (Nat.lt_ge_cases i L) as [H|H].
  - rewrite map2_nth by (rewrite ?mask_len; lia). rewrite mask_nth by exact H.
    replace (nth i a 0 * sgn (L - 1 - i) 1 * nth (k - i) b 0) with (sgn (L - 1 - i) 1 * (nth i a 0 * nth (k - i) b 0)) by ring.
    rewrite sgn_mul. apply sgn_mod. rewrite Nat.even_sub, Nat.even_add by lia. reflexivity.
  - rewrite (nth_overflow (map2 _ _ _)) by (rewrite map2_len; rewrite ?mask_len; lia). rewrite (nth_overflow a) by lia.
    unfold sgn. destruct (Nat.even _); ring.
Qed.

(** the values of the two product-filter losses *)
Definition lens w (L : nat) : Prop :=
  List.length (dec_lo w) = L /\ List.length (dec_hi w) = L /\ List.length (rec_lo w) = L /\ List.length (rec_hi w) = L.
Definition distort w (k : nat) : K := convc (dec_lo w) (rec_lo w) k + convc (dec_hi w) (rec_hi w) k.
Definition aliast w (k : nat) : K := aliasc (dec_lo w) (rec_lo w) k + aliasc (dec_hi w) (rec_hi w) k.
Lemma tsum_map {A} (f : A -> K) l : tsum (map f l) = sumL l f.
Proof. unfold tsum. exact (sumL_map l f (fun x => x)). Qed.
Lemma pr_loss_ok w L : (0 < L)%nat -> lens w L ->
  perfect_reconstruction_loss w =
  Ok (sumf (2 * L - 1) (fun k => (distort w k - (if Nat.eqb k (L - 1) then 1 + 1 else 0)) * (distort w k - (if Nat.eqb k (L - 1) then 1 + 1 else 0))),
      map (distort w) (seq 0 (2 * L - 1)), map (fun k => if Nat.eqb k (L - 1) then 1 + 1 else 0) (seq 0 (2 * L - 1))).
Proof.
  intros HL (H1 & H2 & H3 & H4). unfold perfect_reconstruction_loss. rewrite H1, H2. rewrite !conv1d_full by assumption. cbn [rbind].
  rewrite bcast_ok by (rewrite !map_length; reflexivity). cbn [rbind]. rewrite map2_map. fold (distort w).
  rewrite map_length, seq_length. unfold spike. replace ((2 * L - 1) / 2)%nat with (L - 1)%nat.
  2: { apply (Nat.div_unique _ 2 _ 1); lia. }
  rewrite map2_map, tsum_map, sumL_seq. reflexivity.
Qed.
Lemma ac_loss_ok w L : (0 < L)%nat -> lens w L ->
  alias_cancellation_loss w =
  Ok (sumf (2 * L - 1) (fun k => aliast w k * aliast w k),
      map (fun k => sgn (L - 1) (aliast w k)) (seq 0 (2 * L - 1)), map (fun _ => 0) (seq 0 (2 * L - 1))).
Proof.
  intros HL (H1 & H2 & H3 & H4). unfold alias_cancellation_loss. rewrite H1, H2. rewrite !bcast_ok by (rewrite mask_len; assumption). cbn [rbind].
  rewrite !conv1d_full by (rewrite ?map2_len; rewrite ?mask_len; assumption). cbn [rbind].
  rewrite bcast_ok by (rewrite !map_length; reflexivity). cbn [rbind]. rewrite map2_map.
  rewrite (map_ext (fun x => convc (map2 kmul (dec_lo w) (mask L)) (rec_lo w) x + convc (map2 kmul (dec_hi w) (mask L)) (rec_hi w) x) (fun k => sgn (L - 1) (aliast w k))).
  2: { intros k. rewrite !(convc_mask _ _ L) by assumption. unfold aliast, sgn. destruct (Nat.even _); ring. }
  rewrite map_map. rewrite map2_map, tsum_map, sumL_seq. f_equal. f_equal. f_equal. apply sumf_ext. intros k _. unfold sgn. destruct (Nat.even _); ring.
Qed.

(** vanishing sums of squares *)
Hypothesis HR : formally_real K.
Lemma real_cancel2 : cancel2 K.
Proof.
  intros x y H. assert (E : x - y = 0).
  { apply (HR 2 (fun _ => x - y)) with (j := 0%nat); [|lia]. cbn.
    transitivity ((x - y) * ((x + x) - (y + y))); [ring|]. rewrite H. ring. }
  transitivity ((x - y) + y); [ring|]. rewrite E. ring.
Qed.
Lemma two_sums n m (u v : nat -> K) : sumf n (fun i => u i * u i) + sumf m (fun i => v i * v i) = 0 ->
  (forall i, (i < n)%nat -> u i = 0) /\ (forall i, (i < m)%nat -> v i = 0).
Proof.
  intros H. set (f := fun i => if Nat.ltb i n then u i else v (i - n)%nat).
  assert (E : sumf (n + m) (fun i => f i * f i) = 0).
  { rewrite <- H. rewrite sumf_app. f_equal; apply sumf_ext; intros i Hi; unfold f.
    - destruct (Nat.ltb_spec i n); [reflexivity|lia].
    - destruct (Nat.ltb_spec (n + i) n); [lia|]. replace (n + i - n)%nat with i by lia. reflexivity. }
  pose proof (HR _ _ E) as G. split; intros i Hi.
  - specialize (G i ltac:(lia)). unfold f in G. destruct (Nat.ltb_spec i n); [exact G|lia].
  - specialize (G (n + i)%nat ltac:(lia)). unfold f in G. destruct (Nat.ltb_spec (n + i) n); [lia|]. replace (n + i - n)%nat with i in G by lia. exact G.
Qed.
Lemma one_sum n (u : nat -> K) : sumf n (fun i => u i * u i) = 0 <-> forall i, (i < n)%nat -> u i = 0.
Proof.
  split; [intros H i Hi; apply (HR _ _ H); exact Hi|]. intros H. apply sumf_zero. intros i Hi. rewrite (H i Hi). ring.
Qed.
Lemma sub_zero (x y : K) : x - y = 0 <-> x = y.
Proof. split; [intros H; transitivity ((x - y) + y); [ring|rewrite H; ring]|intros ->; ring]. Qed.

Lemma distort_big w L k : (0 < L)%nat -> lens w L -> (2 * L - 1 <= k)%nat -> distort w k = 0.
Proof. intros HL (H1 & H2 & H3 & H4) Hk. unfold distort. rewrite !(convc_big _ _ L) by lia. ring. Qed.
Lemma aliast_big w L k : (0 < L)%nat -> lens w L -> (2 * L - 1 <= k)%nat -> aliast w k = 0.
Proof. intros HL (H1 & H2 & H3 & H4) Hk. unfold aliast. rewrite !(aliasc_big _ _ L) by lia. ring. Qed.

(** pf_alias_cancellation_loss and filt_bank_orthogonality_loss compare filters entrywise *)
Lemma sq_sum a : tsum (map (fun e => e * e) a) = sumf (List.length a) (fun i => nth i a 0 * nth i a 0).
Proof. rewrite tsum_map. symmetry. apply (sumf_nth_sumL a 0 (fun e => e * e)). Qed.
Lemma diff_zero a b : List.length a = List.length b ->
  ((forall i, (i < List.length a)%nat -> nth i (map2 ksub a b) 0 = 0) <-> a = b).
Proof.
  intros H. split.
  - intros G. apply (nth_ext a b 0 0 H). intros i Hi. specialize (G i Hi). rewrite map2_nth in G by assumption. apply sub_zero. exact G.
  - intros -> i Hi. rewrite map2_nth by (reflexivity || exact Hi). ring.
Qed.
Lemma fb_loss_ok w L : lens w L -> exists l, filt_bank_orthogonality_loss w = Ok l /\
  (l = 0 <-> rec_lo w = rev (dec_lo w) /\ rec_hi w = rev (dec_hi w)).
Proof.
  intros (H1 & H2 & H3 & H4). unfold filt_bank_orthogonality_loss. rewrite !bcast_ok by (rewrite rev_length; congruence). cbn [rbind].
  eexists. split; [reflexivity|]. rewrite !sq_sum.
  assert (E1 : List.length (dec_lo w) = List.length (rev (rec_lo w))) by (rewrite rev_length; congruence).
  assert (E2 : List.length (dec_hi w) = List.length (rev (rec_hi w))) by (rewrite rev_length; congruence).
  rewrite !map2_len by assumption.
  assert (R : forall a b, a = rev b <-> b = rev a) by (intros a b; split; intros ->; rewrite rev_involutive; reflexivity).
  rewrite (R (rec_lo w)), (R (rec_hi w)). rewrite <- (diff_zero _ _ E1), <- (diff_zero _ _ E2). split.
  - intros H. apply two_sums in H. exact H.
  - intros [A B]. rewrite (proj2 (one_sum _ _) A), (proj2 (one_sum _ _) B). ring.
Qed.
Lemma pf_loss_ok w L : lens w L -> exists l e1 e2, pf_alias_cancellation_loss w = Ok (l, e1, e2) /\
  (l = 0 <-> forall i, (i < L)%nat -> nth i (rec_lo w) 0 = sgn (L - 1 - i) (nth i (dec_hi w) 0) /\ nth i (rec_hi w) 0 = - sgn (L - 1 - i) (nth i (dec_lo w) 0)).
Proof.
  intros (H1 & H2 & H3 & H4). unfold pf_alias_cancellation_loss. rewrite H1.
  assert (Hm : List.length (mask (K := K) L) = L) by apply mask_len.
  assert (Hm1 : List.length (map (fun e => - (1) * e) (mask (K := K) L)) = L) by (rewrite map_length; apply mask_len).
  rewrite (bcast_ok kmul (mask L)) by congruence. cbn [rbind]. rewrite bcast_ok by (rewrite map2_len; congruence). cbn [rbind].
  rewrite (bcast_ok kmul (map _ (mask L))) by congruence. cbn [rbind]. rewrite bcast_ok by (rewrite map2_len; congruence). cbn [rbind].
  do 3 eexists. split; [reflexivity|]. rewrite !sq_sum.
  assert (E1 : List.length (rec_lo w) = List.length (map2 kmul (mask L) (dec_hi w))) by (rewrite map2_len; congruence).
  assert (E2 : List.length (rec_hi w) = List.length (map2 kmul (map (fun e => - (1) * e) (mask L)) (dec_lo w))) by (rewrite map2_len; congruence).
  rewrite !map2_len by assumption. rewrite H3, H4.
  assert (N1 : forall i, (i < L)%nat -> nth i (map2 kmul (mask L) (dec_hi w)) 0 = sgn (L - 1 - i) (nth i (dec_hi w) 0)).
  { intros i Hi. rewrite map2_nth by congruence. rewrite mask_nth by exact Hi. apply sgn_mul. }
  assert (N2 : forall i, (i < L)%nat -> nth i (map2 kmul (map (fun e => - (1) * e) (mask L)) (dec_lo w)) 0 = - sgn (L - 1 - i) (nth i (dec_lo w) 0)).
  { intros i Hi. rewrite map2_nth by congruence. rewrite (nth_indep _ 0 (- (1) * 0)) by congruence. rewrite (map_nth (fun e => - (1) * e)), mask_nth by exact Hi.
    transitivity (- (sgn (L - 1 - i) 1 * nth i (dec_lo w) 0)); [ring|]. rewrite sgn_mul. reflexivity. }
  assert (D1 := diff_zero _ _ E1). assert (D2 := diff_zero _ _ E2). rewrite H3 in D1. rewrite H4 in D2. split.
  - intros H. apply two_sums in H as [A B]. apply D1 in A. apply D2 in B. intros i Hi. rewrite <- N1, <- N2, <- A, <- B by exact Hi. auto.
  - intros H. rewrite (proj2 (one_sum _ _)), (proj2 (one_sum _ _)); [ring| |].
    + intros i Hi. rewrite map2_nth by congruence. rewrite N2, (proj2 (H i Hi)) by exact Hi. ring.
    + intros i Hi. rewrite map2_nth by congruence. rewrite N1, (proj1 (H i Hi)) by exact Hi. ring.
Qed.

(** rec_lo_orthogonality_loss: correlations of dec_lo at the non-negative even lags *)
Lemma corr_beyond a b (d : Z) : (Z.of_nat (List.length b) <= d)%Z -> corr a b d = 0.
Proof. intros H. unfold corr. apply sumf_zero. intros j Hj. rewrite zget_big by lia. ring. Qed.
Lemma corr_sym a (d : Z) : corr a a d = corr a a (- d).
Proof.
  assert (G : forall d, (0 <= d)%Z -> corr a a d = corr a a (- d)).
  { clear d. intros d Hd. unfold corr. set (n := List.length a).
    transitivity (sumf (n + Z.to_nat d) (fun j => nth j a 0 * zget a (Z.of_nat j - d))).
    - rewrite Nat.add_comm, sumf_app. rewrite (sumf_zero (Z.to_nat d)).
      2: { intros i Hi. rewrite zget_neg by lia. ring. }
      transitivity (sumf n (fun j => zget a (Z.of_nat j + d) * nth j a 0)); [apply sumf_ext; intros; ring|].
      transitivity (sumf n (fun i => nth (Z.to_nat d + i) a 0 * zget a (Z.of_nat (Z.to_nat d + i) - d))); [|ring].
      apply sumf_ext. intros i Hi. rewrite <- !zget_nat. f_equal; f_equal; lia.
    - apply sumf_extend; [lia|]. intros j Hj. rewrite nth_overflow by (fold n; lia). ring. }
  destruct (Z.le_ge_cases 0 d); [apply G; assumption|]. replace d with (- - d)%Z at 1 by lia. symmetry. apply G. lia.
Qed.
Lemma ro_loss_ok w L : (0 < L)%nat -> List.length (dec_lo w) = L -> exists l, rec_lo_orthogonality_loss w = Ok l /\
  (l = 0 <-> forall k : Z, corr (dec_lo w) (dec_lo w) (2 * k) = if Z.eqb k 0 then 1 else 0).
Proof.
  intros HL H. unfold rec_lo_orthogonality_loss, conv1d. rewrite app_length, repeat_length, H.
  replace (Nat.ltb 0 L && Nat.leb L (L + L + 2 * 0))%bool with true by (symmetry; apply andb_true_iff; split; [apply Nat.ltb_lt|apply Nat.leb_le]; lia).
  cbn [rbind]. eexists. split; [reflexivity|]. rewrite map_length, seq_length. replace (L + L + 2 * 0 - L)%nat with L by lia. unfold spike.
  rewrite map2_map, map_map, tsum_map, sumL_seq.
  set (a := dec_lo w) in *.
  assert (E : forall k, sumf L (fun j => zget (a ++ repeat 0 L) (Z.of_nat (k * 2 + j) - Z.of_nat 0) * nth j a 0) = corr a a (2 * Z.of_nat k)).
  { intros k. unfold corr. rewrite H. apply sumf_ext. intros j Hj. replace (Z.of_nat (k * 2 + j) - Z.of_nat 0)%Z with (Z.of_nat (k * 2 + j)) by lia.
    replace (Z.of_nat j + 2 * Z.of_nat k)%Z with (Z.of_nat (k * 2 + j)) by lia. rewrite !zget_nat.
    destruct (Nat.lt_ge_cases (k * 2 + j) L) as [Hl|Hl].
    - rewrite app_nth1 by lia. ring.
    - rewrite app_nth2 by lia. rewrite (nth_overflow a (n := (k * 2 + j)%nat)) by lia. rewrite H.
      destruct (Nat.lt_ge_cases (k * 2 + j - L) L) as [Hl'|Hl']; [rewrite nth_repeat; ring|rewrite nth_overflow by (rewrite repeat_length; lia); ring]. }
  rewrite (sumf_ext _ _ (fun k => (corr a a (2 * Z.of_nat k) - (if Nat.eqb k 0 then 1 else 0)) * (corr a a (2 * Z.of_nat k) - (if Nat.eqb k 0 then 1 else 0)))).
  2: { intros k _. rewrite E. reflexivity. }
  rewrite one_sum. split.
  - intros G. assert (G' : forall k : nat, corr a a (2 * Z.of_nat k) = if Nat.eqb k 0 then 1 else 0).
    { intros k. destruct (Nat.lt_ge_cases k (L / 2 + 1)) as [Hk|Hk]; [apply sub_zero; auto|].
      pose proof (Nat.div_mod L 2 ltac:(lia)). pose proof (Nat.mod_upper_bound L 2 ltac:(lia)).
      rewrite corr_beyond by (rewrite H; lia). destruct (Nat.eqb_spec k 0); [lia|reflexivity]. }
    intros k. destruct (Z.le_ge_cases 0 k) as [Hk|Hk].
    + specialize (G' (Z.to_nat k)). rewrite Z2Nat.id in G' by exact Hk. rewrite G'. destruct (Nat.eqb_spec (Z.to_nat k) 0), (Z.eqb_spec k 0); try lia; reflexivity.
    + specialize (G' (Z.to_nat (- k))). rewrite Z2Nat.id in G' by lia. rewrite corr_sym. replace (- (2 * k))%Z with (2 * - k)%Z by lia. rewrite G'.
      destruct (Nat.eqb_spec (Z.to_nat (- k)) 0), (Z.eqb_spec k 0); try lia; reflexivity.
  - intros G k _. apply sub_zero. rewrite G. destruct (Nat.eqb_spec k 0), (Z.eqb_spec (Z.of_nat k) 0); try lia; reflexivity.
Qed.
End LF.
