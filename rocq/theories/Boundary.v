(** The boundary analysis and synthesis matrices: raw rows, which of them are truncated, orthogonality. *)
From Coq Require Import List Arith ZArith Lia Bool String Ring.
From Verif Require Import Base Sums Tensor TensorFacts Accept Util Sparse SparseFacts SparseConv SpecMat SparseMM LinAlg GramSchmidt Mat1 MatOrth.
Import ListNotations.

Local Arguments Nat.div : simpl never.
Local Arguments Nat.modulo : simpl never.
Local Arguments Nat.ltb : simpl never.
Local Arguments Nat.leb : simpl never.
Section BD.
Context {K : CRing}.
Add Ring Kring : (cr_th K).
Open Scope K_scope.
Variable LA : linalg K.
Hypothesis HD : domain K.
Implicit Types (m : smat K) (w : wavelet K) (f : list K).

Definition bank_ok w (L : nat) : Prop := orthogonal_bank L (dec_lo w) (dec_hi w) (rec_lo w) (rec_hi w).

(** *** sums of shifted filters *)
Definition rowv (f : list K) (L k c : nat) : K := zget f (Z.of_nat (L / 2) + 2 * Z.of_nat k - Z.of_nat c).
Lemma zget_expand f (z : Z) : zget f z = sumf (List.length f) (fun j => if Z.eqb z (Z.of_nat j) then nth j f 0 else 0).
Proof.
  destruct (Z.ltb_spec z 0) as [H|H]; [|destruct (Z.ltb_spec z (Z.of_nat (List.length f))) as [H'|H']].
  - rewrite zget_neg by exact H. symmetry. apply sumf_zero. intros j _. destruct (Z.eqb_spec z (Z.of_nat j)); [lia|reflexivity].
  - rewrite (sumf_single _ (Z.to_nat z)); [|lia|].
    + rewrite Z2Nat.id, Z.eqb_refl by lia. rewrite <- zget_nat, Z2Nat.id by lia. reflexivity.
    + intros j _ Hj. destruct (Z.eqb_spec z (Z.of_nat j)); [lia|reflexivity].
  - rewrite zget_big by exact H'. symmetry. apply sumf_zero. intros j Hj. destruct (Z.eqb_spec z (Z.of_nat j)); [lia|reflexivity].
Qed.
Lemma dot_rows (f f' : list K) L n k k' : List.length f = L -> List.length f' = L ->
  (L / 2 <= 2 * k + 1 \/ L / 2 <= 2 * k' + 1)%nat -> (L / 2 + 2 * k < n \/ L / 2 + 2 * k' < n)%nat -> (L mod 2 = 0)%nat ->
  dot n (rowv f L k) (rowv f' L k') = corr f f' (2 * (Z.of_nat k' - Z.of_nat k)).
Proof.
  intros Hf Hf' H1 H2 He. unfold dot, corr. rewrite Hf. pose proof (Nat.div_mod L 2 ltac:(lia)) as HL. rewrite He in HL.
  rewrite (sumf_ext n _ (fun c => sumf L (fun j => if Z.eqb (Z.of_nat (L / 2) + 2 * Z.of_nat k - Z.of_nat c) (Z.of_nat j) then nth j f 0 * zget f' (Z.of_nat j + 2 * (Z.of_nat k' - Z.of_nat k)) else 0))).
  2: { intros c Hc. unfold rowv at 1. rewrite zget_expand, Hf, <- sumf_mul_r. apply sumf_ext. intros j Hj.
       destruct (Z.eqb_spec (Z.of_nat (L / 2) + 2 * Z.of_nat k - Z.of_nat c) (Z.of_nat j)) as [E|_]; [|ring]. unfold rowv. do 2 f_equal. lia. }
  rewrite sumf_swap. apply sumf_ext. intros j Hj. set (z := (Z.of_nat (L / 2) + 2 * Z.of_nat k - Z.of_nat j)%Z).
  destruct (Z.ltb_spec z 0) as [Hz|Hz]; [|destruct (Z.ltb_spec z (Z.of_nat n)) as [Hz'|Hz']].
  - rewrite sumf_zero by (intros c _; destruct (Z.eqb_spec (Z.of_nat (L / 2) + 2 * Z.of_nat k - Z.of_nat c) (Z.of_nat j)); [lia|reflexivity]).
    rewrite zget_big by (rewrite Hf'; lia). ring.
  - rewrite (sumf_single n (Z.to_nat z)); [|lia|intros c _ Hc; destruct (Z.eqb_spec (Z.of_nat (L / 2) + 2 * Z.of_nat k - Z.of_nat c) (Z.of_nat j)); [lia|reflexivity]].
    destruct (Z.eqb_spec (Z.of_nat (L / 2) + 2 * Z.of_nat k - Z.of_nat (Z.to_nat z)) (Z.of_nat j)); [reflexivity|lia].
  - rewrite sumf_zero by (intros c Hc; destruct (Z.eqb_spec (Z.of_nat (L / 2) + 2 * Z.of_nat k - Z.of_nat c) (Z.of_nat j)); [lia|reflexivity]).
    rewrite zget_neg by lia. ring.
Qed.
Lemma corr_cross_sym w L k : bank_ok w L -> corr (dec_hi w) (dec_lo w) (2 * k) = 0.
Proof.
  intros B. pose proof (ob_even _ _ _ _ _ B) as He. pose proof (ob_two _ _ _ _ _ B) as H2. pose proof (ob_len_lo _ _ _ _ _ B) as Ll. pose proof (ob_len_hi _ _ _ _ _ B) as Lh.
  (* place both rows inside a long enough signal *)
  set (k1 := (Z.to_nat (Z.abs k) + L)%nat). set (k2 := Z.to_nat (Z.of_nat k1 + k)). set (n := (L + 2 * k1 + 2 * k2)%nat).
  assert (E1 : corr (dec_hi w) (dec_lo w) (2 * k) = dot n (rowv (dec_hi w) L k1) (rowv (dec_lo w) L k2)).
  { rewrite dot_rows; auto; [do 2 f_equal; lia| |]; pose proof (Nat.div_mod L 2 ltac:(lia)); lia. }
  rewrite E1, dot_comm, dot_rows; auto; [apply (ob_cross _ _ _ _ _ B)| |]; pose proof (Nat.div_mod L 2 ltac:(lia)); lia.
Qed.

(** *** the raw matrix *)
Definition fsel w n i : list K := if Nat.ltb i (n / 2) then dec_lo w else dec_hi w.
Definition ksel (n i : nat) : nat := if Nat.ltb i (n / 2) then i else (i - n / 2)%nat.
Lemma squeezed_ok f : (2 <= List.length f)%nat -> squeezed f = Ok f.
Proof. destruct f as [|a [|b l]]; cbn; intros; try lia; reflexivity. Qed.
Lemma sp_cat_run m m' : s_cols m = s_cols m' -> exists r, sp_cat m m' = Ok r /\ s_ent r = s_ent m ++ map (fun e => ((fst (fst e) + s_rows m)%nat, snd (fst e), snd e)) (s_ent m').
Proof. intros H. unfold sp_cat. rewrite H, Nat.eqb_refl. eexists. split; reflexivity. Qed.
Lemma two_banks g (f1 f2 : list K) n L : List.length f1 = L -> List.length f2 = L -> (2 <= L)%nat -> (L mod 2 = 0)%nat -> (0 < n)%nat -> (n mod 2 = 0)%nat ->
  exists A, (let* a := construct_strided_conv_matrix g f1 n 2 "sameshift" in let* d := construct_strided_conv_matrix g f2 n 2 "sameshift" in sp_cat a d) = Ok A /\
  s_tag A = g /\ s_rows A = n /\ s_cols A = n /\ s_wf A /\
  (forall i c, (i < n)%nat -> (c < n)%nat -> mget A i c = rowv (if Nat.ltb i (n / 2) then f1 else f2) L (ksel n i) c) /\
  (forall i c, (exists v, In ((i, c), v) (s_ent A)) <-> (i < n /\ c < n /\ c <= L / 2 + 2 * ksel n i < c + L)%nat).
Proof.
  intros H1 H2 HL He Hn Hne.
  pose proof (Nat.div_mod L 2 ltac:(lia)) as DL. rewrite He in DL. pose proof (Nat.div_mod n 2 ltac:(lia)) as Dn. rewrite Hne in Dn.
  assert (Hm : conv_mode "sameshift") by (unfold conv_mode; tauto).
  assert (N1 : f1 <> []) by (intros ->; cbn in H1; lia). assert (N2 : f2 <> []) by (intros ->; cbn in H2; lia).
  destruct (construct_strided_conv_matrix_ok g f1 n 2 "sameshift" N1 Hn ltac:(lia) Hm ltac:(discriminate)) as (a & Ea & A1 & A2 & A3 & A4 & A5 & A6).
  destruct (construct_strided_conv_matrix_ok g f2 n 2 "sameshift" N2 Hn ltac:(lia) Hm ltac:(discriminate)) as (d & Ed & D1 & D2 & D3 & D4 & D5 & D6).
  rewrite H1 in *. rewrite H2 in *. cbn [String.eqb Ascii.eqb Bool.eqb] in *. change (conv_outlen "sameshift" L n) with n in *.
  assert (Est : conv_start "sameshift" L = (L / 2 - 1)%nat) by (unfold conv_start; cbn [String.eqb Ascii.eqb Bool.eqb]; lia). rewrite Est in *.
  replace ((n - 1 + 2 - 1) / 2)%nat with (n / 2)%nat in A2, D2 by (f_equal; lia).
  rewrite Ea. cbn [rbind]. rewrite Ed. cbn [rbind]. destruct (sp_cat_run a d) as (A & EA & EE); [congruence|]. exists A. split; [exact EA|].
  destruct (sp_cat_ok a d A EA) as (_ & C1 & C2 & C3 & C4). destruct (C4 A4 D4) as [C5 C6]. split; [congruence|]. split; [lia|]. split; [congruence|]. split; [exact C5|]. split.
  - intros i c Hi Hc. rewrite C6, A2. unfold ksel. destruct (Nat.ltb_spec i (n / 2)) as [H|H]; [rewrite A5 by lia|rewrite D5 by lia]; unfold rowv; f_equal; lia.
  - intros i c. rewrite EE. unfold ksel. split.
    + intros [v Hv]. apply in_app_or in Hv. destruct Hv as [Hv|Hv].
      * assert (Hx : exists v, In ((i, c), v) (s_ent a)) by eauto. apply A6 in Hx. rewrite A2 in Hx. destruct (Nat.ltb_spec i (n / 2)); lia.
      * apply in_map_iff in Hv. destruct Hv as ([[i' c'] v'] & [= <- <- <-] & Hv). assert (Hx : exists v, In ((i', c'), v) (s_ent d)) by eauto. apply D6 in Hx. rewrite D2 in Hx. rewrite A2.
        destruct (Nat.ltb_spec (i' + n / 2) (n / 2)); lia.
    + intros (Hi & Hc & Hk). destruct (Nat.ltb_spec i (n / 2)) as [H|H].
      * destruct (proj2 (A6 i c)) as [v Hv]; [rewrite A2; lia|]. exists v. apply in_or_app. left. exact Hv.
      * destruct (proj2 (D6 (i - n / 2)%nat c)) as [v Hv]; [rewrite D2; lia|]. exists v. apply in_or_app. right. apply in_map_iff. exists ((i - n / 2)%nat, c, v). split; [|exact Hv].
        cbn [fst snd]. rewrite A2. f_equal. f_equal. lia.
Qed.
Lemma construct_a_ok g w n L : bank_ok w L -> (0 < n)%nat -> (n mod 2 = 0)%nat ->
  exists A, construct_a g w n "sameshift" = Ok A /\ s_tag A = g /\ s_rows A = n /\ s_cols A = n /\ s_wf A /\
  (forall i c, (i < n)%nat -> (c < n)%nat -> mget A i c = rowv (fsel w n i) L (ksel n i) c) /\
  (forall i c, (exists v, In ((i, c), v) (s_ent A)) <-> (i < n /\ c < n /\ c <= L / 2 + 2 * ksel n i < c + L)%nat).
Proof.
  intros B Hn Hne. pose proof (ob_even _ _ _ _ _ B) as He. pose proof (ob_two _ _ _ _ _ B) as H2. pose proof (ob_len_lo _ _ _ _ _ B) as Ll. pose proof (ob_len_hi _ _ _ _ _ B) as Lh.
  unfold construct_a. rewrite !squeezed_ok by lia. cbn [rbind]. apply two_banks; assumption.
Qed.

(** *** which rows are truncated *)
Lemma count_interval a b n : (a <= b)%nat -> List.length (filter (fun j => Nat.leb a j && Nat.ltb j b) (seq 0 n)) = (Nat.min b n - Nat.min a n)%nat.
Proof.
  intros Hab. induction n as [|n IH]; [cbn; lia|]. rewrite seq_S, filter_app, app_length, IH. cbn [filter Nat.add].
  destruct (Nat.leb_spec a n), (Nat.ltb_spec n b); cbn [andb List.length]; lia.
Qed.
Definition truncated (L n i : nat) : Prop := (2 * ksel n i + 1 < L / 2 \/ n <= L / 2 + 2 * ksel n i)%nat.
Lemma stored_count m n L : (L mod 2 = 0)%nat -> (2 <= L)%nat -> (L <= n)%nat -> (n mod 2 = 0)%nat -> s_rows m = n -> s_cols m = n ->
  (forall i c, (exists v, In ((i, c), v) (s_ent m)) <-> (i < n /\ c < n /\ c <= L / 2 + 2 * ksel n i < c + L)%nat) ->
  forall i, (In i (get_to_orthogonalize m L) <-> (i < n)%nat /\ truncated L n i).
Proof.
  intros He H2 Hn Hne Hr Hc Hst i. rewrite in_get_to, Hr.
  pose proof (Nat.div_mod L 2 ltac:(lia)) as DL. rewrite He in DL. pose proof (Nat.div_mod n 2 ltac:(lia)) as Dn. rewrite Hne in Dn.
  assert (Hk : (i < n)%nat -> (2 * ksel n i + 2 <= n)%nat) by (unfold ksel; destruct (Nat.ltb_spec i (n / 2)); lia).
  assert (E : (i < n)%nat -> stored_in_row m i = (Nat.min (L / 2 + 2 * ksel n i + 1) n - Nat.min (2 * ksel n i + 1 - L / 2) n)%nat).
  { intros Hi. unfold stored_in_row. rewrite Hc. rewrite <- count_interval by lia. f_equal. apply filter_ext_in. intros j Hj. apply in_seq in Hj.
    apply eq_true_iff_eq. rewrite existsb_pos, Hst, andb_true_iff, Nat.leb_le, Nat.ltb_lt. lia. }
  unfold truncated. split.
  - intros (Hi & _ & Hne2). rewrite (E Hi) in Hne2. specialize (Hk Hi). lia.
  - intros (Hi & Ht). rewrite (E Hi). specialize (Hk Hi). lia.
Qed.

Lemma bank_corr w L n i k : bank_ok w L -> (i < n)%nat -> (k < n)%nat -> (n mod 2 = 0)%nat ->
  corr (fsel w n i) (fsel w n k) (2 * (Z.of_nat (ksel n k) - Z.of_nat (ksel n i))) = delta i k.
Proof.
  intros B Hi Hk Hne. pose proof (Nat.div_mod n 2 ltac:(lia)) as Dn. rewrite Hne in Dn. unfold fsel, ksel, delta.
  destruct (Nat.ltb_spec i (n / 2)) as [Hi2|Hi2]; destruct (Nat.ltb_spec k (n / 2)) as [Hk2|Hk2].
  - rewrite (ob_lo _ _ _ _ _ B). destruct (Z.eqb_spec (Z.of_nat k - Z.of_nat i) 0); destruct (Nat.eqb_spec i k); try reflexivity; lia.
  - rewrite (ob_cross _ _ _ _ _ B). destruct (Nat.eqb_spec i k); [lia|reflexivity].
  - rewrite (corr_cross_sym w L _ B). destruct (Nat.eqb_spec i k); [lia|reflexivity].
  - rewrite (ob_hi _ _ _ _ _ B). destruct (Z.eqb_spec (Z.of_nat (k - n / 2) - Z.of_nat (i - n / 2)) 0); destruct (Nat.eqb_spec i k); try reflexivity; lia.
Qed.
Lemma len_fsel w L n i : bank_ok w L -> List.length (fsel w n i) = L.
Proof. intros B. unfold fsel. destruct (Nat.ltb i (n / 2)); [apply (ob_len_lo _ _ _ _ _ B)|apply (ob_len_hi _ _ _ _ _ B)]. Qed.
Lemma raw_dot w L n i k : bank_ok w L -> (n mod 2 = 0)%nat -> (i < n)%nat -> (k < n)%nat ->
  (L / 2 <= 2 * ksel n i + 1 \/ L / 2 <= 2 * ksel n k + 1)%nat -> (L / 2 + 2 * ksel n i < n \/ L / 2 + 2 * ksel n k < n)%nat ->
  dot n (rowv (fsel w n i) L (ksel n i)) (rowv (fsel w n k) L (ksel n k)) = delta i k.
Proof.
  intros B Hne Hi Hk H1 H2. rewrite dot_rows; auto; try apply (len_fsel w L n _ B); [|apply (ob_even _ _ _ _ _ B)]. apply (bank_corr w L); assumption.
Qed.

(** *** the truncated rows are independent *)
Section Indep.
Hypothesis HR : formally_real K.
Lemma sumf_zero_iff_dot n (v : nat -> K) : dot n v v = 0 -> forall j, (j < n)%nat -> v j = 0.
Proof. apply HR. Qed.
Lemma sumL_filter_seq n (p : nat -> bool) (x : nat -> K) : sumL (filter p (seq 0 n)) x = sumf n (fun i => if p i then x i else 0).
Proof.
  induction n as [|n IH]; [reflexivity|]. rewrite seq_S, filter_app, sumL_app, IH. cbn [sumf filter Nat.add]. destruct (p n); unfold sumL; cbn [fold_right]; ring.
Qed.
Lemma sumf_halves h (x : nat -> K) : sumf (h + h) x = sumf h (fun k => x k + x (h + k)%nat).
Proof. rewrite sumf_app, sumf_add. reflexivity. Qed.
Lemma sumf_ends h q (x : nat -> K) : (2 * q <= h)%nat -> (forall k, (q <= k < h - q)%nat -> x k = 0) -> sumf h x = sumf q x + sumf q (fun k => x (h - 1 - k)%nat).
Proof.
  intros Hq Hz. replace h with (q + ((h - 2 * q) + q))%nat at 1 by lia. rewrite !sumf_app. f_equal.
  rewrite sumf_zero by (intros k Hk; apply Hz; lia). rewrite (sumf_rev q (fun k => x (h - 1 - k)%nat)). transitivity (0 + sumf q (fun k => x (q + (h - 2 * q + k))%nat)); [reflexivity|].
  rewrite (sumf_ext q (fun i => x (h - 1 - (q - 1 - i))%nat) (fun k => x (q + (h - 2 * q + k))%nat)); [ring|]. intros k Hk. f_equal. lia.
Qed.
Lemma raw_independent w L n (todo : list nat) : bank_ok w L -> boundary_independent L (dec_lo w) (dec_hi w) -> (L <= n)%nat -> (n mod 2 = 0)%nat -> NoDup todo ->
  (forall i, In i todo <-> (i < n)%nat /\ truncated L n i) ->
  independent n todo (fun i c => rowv (fsel w n i) L (ksel n i) c).
Proof.
  intros B [BL BR] Hn Hne Hnd Hto c Hc i0 Hi0.
  pose proof (ob_even _ _ _ _ _ B) as He. pose proof (ob_two _ _ _ _ _ B) as H2.
  pose proof (Nat.div_mod L 2 ltac:(lia)) as DL. rewrite He in DL. pose proof (Nat.div_mod n 2 ltac:(lia)) as Dn. rewrite Hne in Dn.
  assert (D4 : (L / 4 = L / 2 / 2)%nat) by (rewrite Nat.div_div by lia; reflexivity).
  pose proof (Nat.div_mod (L / 2) 2 ltac:(lia)) as DL4. rewrite <- D4 in DL4. pose proof (Nat.mod_upper_bound (L / 2) 2 ltac:(lia)) as Dm.
  set (q := (L / 4)%nat) in *. set (h := (n / 2)%nat) in *.
  assert (Hqh : (2 * q <= h)%nat) by lia.
  set (t := fun i => memn i todo).
  assert (Ht : forall i, (i < n)%nat -> t i = true <-> truncated L n i) by (intros i Hi; unfold t; rewrite memn_spec, Hto; tauto).
  set (row := fun i c => rowv (fsel w n i) L (ksel n i) c) in *.
  (* the sum over the list is a sum over k of the two filters *)
  set (d := fun i => if t i then c i else 0).
  assert (Hk1 : forall k, (k < h)%nat -> ksel n k = k) by (intros k Hk; unfold ksel; fold h; destruct (Nat.ltb_spec k h); [reflexivity|lia]).
  assert (Hk2 : forall k, (k < h)%nat -> ksel n (h + k) = k) by (intros k Hk; unfold ksel; fold h; destruct (Nat.ltb_spec (h + k) h); lia).
  assert (Hf1 : forall k, (k < h)%nat -> fsel w n k = dec_lo w) by (intros k Hk; unfold fsel; fold h; destruct (Nat.ltb_spec k h); [reflexivity|lia]).
  assert (Hf2 : forall k, (k < h)%nat -> fsel w n (h + k) = dec_hi w) by (intros k Hk; unfold fsel; fold h; destruct (Nat.ltb_spec (h + k) h); [lia|reflexivity]).
  set (P := fun j k => d k * rowv (dec_lo w) L k j + d (h + k)%nat * rowv (dec_hi w) L k j).
  assert (Hsum : forall j, sumL todo (fun i => c i * row i j) = sumf h (P j)).
  { intros j. transitivity (sumf n (fun i => d i * row i j)).
    - transitivity (sumL (filter t (seq 0 n)) (fun i => c i * row i j)).
      + (* both lists have the same elements, without repetition *)
        rewrite sumL_filter_seq. clear -Hnd Hto. revert Hnd Hto. intros Hnd Hto.
        assert (Hlt : forall i, In i todo -> (i < n)%nat) by (intros i Hi; apply Hto in Hi; tauto). clear Hto. unfold t. clear t. induction todo as [|a l IH].
        * unfold sumL. cbn [fold_right]. symmetry. apply sumf_zero. reflexivity.
        * apply NoDup_cons_iff in Hnd. destruct Hnd as [Ha Hnd]. change (sumL (a :: l) ?g) with (g a + sumL l g). cbv beta. rewrite IH; [|exact Hnd|intros; apply Hlt; right; assumption].
          rewrite (sumf_ext n (fun i => if memn i (a :: l) then c i * row i j else 0) (fun i => (if Nat.eqb i a then c i * row i j else 0) + (if memn i l then c i * row i j else 0))).
          -- rewrite sumf_add. f_equal. rewrite (sumf_single n a); [rewrite Nat.eqb_refl; reflexivity|apply Hlt; left; reflexivity|]. intros k _ Hk. destruct (Nat.eqb_spec k a); [contradiction|reflexivity].
          -- intros k _. unfold memn. cbn [existsb]. destruct (Nat.eqb_spec k a) as [->|_]; cbn [orb]; [|ring]. fold (memn a l). rewrite memn_false by exact Ha. ring.
      + rewrite sumL_filter_seq. apply sumf_ext. intros i _. unfold d. destruct (t i); ring.
    - replace n with (h + h)%nat at 1 by lia. rewrite sumf_halves. apply sumf_ext. intros k Hk. unfold P, row. rewrite Hk1, Hk2, Hf1, Hf2 by exact Hk. reflexivity. }
  assert (Hmid : forall j k, (q <= k < h - q)%nat -> P j k = 0).
  { intros j k Hk. unfold P, d.
    assert (T1 : t k = false) by (destruct (t k) eqn:E; [apply Ht in E; [unfold truncated in E; rewrite Hk1 in E; lia|lia]|reflexivity]).
    assert (T2 : t (h + k)%nat = false) by (destruct (t (h + k)%nat) eqn:E; [apply Ht in E; [unfold truncated in E; rewrite Hk2 in E; lia|lia]|reflexivity]).
    rewrite T1, T2. ring. }
  set (VL := fun j => sumf q (P j)). set (VR := fun j => sumf q (fun k => P j (h - 1 - k)%nat)).
  assert (HLR : forall j, (j < n)%nat -> VL j + VR j = 0).
  { intros j Hj. unfold VL, VR. rewrite <- (sumf_ends h q (P j) Hqh (Hmid j)), <- Hsum. apply Hc. exact Hj. }
  (* left rows are orthogonal to right rows *)
  assert (Hrow : forall i k, (i < q)%nat -> (k < q)%nat -> dot n (fun j => P j i) (fun j => P j (h - 1 - k)%nat) = 0).
  { intros i k Hi Hk. unfold P, dot. set (k' := (h - 1 - k)%nat).
    assert (Z4 : forall a b, (a < n)%nat -> (b < n)%nat -> ksel n a = i -> ksel n b = k' -> dot n (rowv (fsel w n a) L (ksel n a)) (rowv (fsel w n b) L (ksel n b)) = 0).
    { intros a b Ha Hb Ea Eb. rewrite (raw_dot w L n a b B Hne Ha Hb); [|rewrite Ea, Eb; unfold k'; lia|rewrite Ea, Eb; unfold k'; lia].
      unfold delta. destruct (Nat.eqb_spec a b) as [E|_]; [|reflexivity]. exfalso. rewrite E, Eb in Ea. unfold k' in Ea. lia. }
    pose proof (Z4 i k' ltac:(lia) ltac:(unfold k'; lia) (Hk1 i ltac:(lia)) (Hk1 k' ltac:(unfold k'; lia))) as z1.
    pose proof (Z4 i (h + k')%nat ltac:(lia) ltac:(unfold k'; lia) (Hk1 i ltac:(lia)) (Hk2 k' ltac:(unfold k'; lia))) as z2.
    pose proof (Z4 (h + i)%nat k' ltac:(lia) ltac:(unfold k'; lia) (Hk2 i ltac:(lia)) (Hk1 k' ltac:(unfold k'; lia))) as z3.
    pose proof (Z4 (h + i)%nat (h + k')%nat ltac:(lia) ltac:(unfold k'; lia) (Hk2 i ltac:(lia)) (Hk2 k' ltac:(unfold k'; lia))) as z4.
    assert (Hi' : (i < h)%nat) by lia. assert (Hk' : (k' < h)%nat) by (unfold k'; lia).
    rewrite (Hk1 i Hi'), (Hf1 i Hi'), (Hk1 k' Hk'), (Hf1 k' Hk') in z1. rewrite (Hk1 i Hi'), (Hf1 i Hi'), (Hk2 k' Hk'), (Hf2 k' Hk') in z2.
    rewrite (Hk2 i Hi'), (Hf2 i Hi'), (Hk1 k' Hk'), (Hf1 k' Hk') in z3. rewrite (Hk2 i Hi'), (Hf2 i Hi'), (Hk2 k' Hk'), (Hf2 k' Hk') in z4.
    transitivity (d i * d k' * dot n (rowv (dec_lo w) L i) (rowv (dec_lo w) L k') + d i * d (h + k')%nat * dot n (rowv (dec_lo w) L i) (rowv (dec_hi w) L k') +
                  d (h + i)%nat * d k' * dot n (rowv (dec_hi w) L i) (rowv (dec_lo w) L k') + d (h + i)%nat * d (h + k')%nat * dot n (rowv (dec_hi w) L i) (rowv (dec_hi w) L k')).
    - unfold dot. rewrite <- !sumf_mul_l, <- !sumf_add. apply sumf_ext. intros j _. ring.
    - rewrite z1, z2, z3, z4. ring. }
  assert (Hdot0 : dot n VL VR = 0).
  { unfold dot, VL, VR. rewrite (sumf_ext n _ (fun j => sumf q (fun i => sumf q (fun k => P j i * P j (h - 1 - k)%nat)))).
    2: { intros j _. rewrite <- sumf_mul_r. apply sumf_ext. intros i _. rewrite <- sumf_mul_l. reflexivity. }
    rewrite sumf_swap. apply sumf_zero. intros i Hi. rewrite sumf_swap. apply sumf_zero. intros k Hk. apply Hrow; assumption. }
  assert (HVL : forall j, (j < n)%nat -> VL j = 0).
  { apply sumf_zero_iff_dot. transitivity (- dot n VL VR); [|rewrite Hdot0; ring]. unfold dot.
    transitivity ((- (1)) * sumf n (fun j => VL j * VR j)); [|ring]. rewrite <- sumf_mul_l. apply sumf_ext. intros j Hj.
    assert (E : VL j = - VR j) by (transitivity (VL j + VR j - VR j); [ring|rewrite (HLR j Hj); ring]). rewrite E. ring. }
  assert (HVR : forall j, (j < n)%nat -> VR j = 0).
  { intros j Hj. transitivity (VL j + VR j - VL j); [ring|]. rewrite (HLR j Hj), (HVL j Hj). ring. }
  assert (HL0 : forall k, (k < q)%nat -> d k = 0 /\ d (h + k)%nat = 0).
  { apply (BL d (fun k => d (h + k)%nat)). intros cc Hcc. apply (HVL cc). lia. }
  assert (HR0 : forall k, (k < q)%nat -> d (h - 1 - k)%nat = 0 /\ d (h + (h - 1 - k))%nat = 0).
  { apply (BR (fun k => d (h - 1 - k)%nat) (fun k => d (h + (h - 1 - k))%nat)). intros cc Hcc. fold q. rewrite <- (HVR (n - 1 - cc)%nat) by lia. unfold VR. apply sumf_ext. intros k Hk.
    unfold P, rowv. replace (Z.of_nat (L / 2) + 2 * Z.of_nat (h - 1 - k) - Z.of_nat (n - 1 - cc))%Z with (Z.of_nat (L / 2) - 1 - 2 * Z.of_nat k + Z.of_nat cc)%Z by lia. reflexivity. }
  (* every truncated row is at one of the ends *)
  apply Hto in Hi0 as Hi0'. destruct Hi0' as [Hi0n Htr].
  assert (Edi : d i0 = c i0) by (unfold d, t; rewrite (proj2 (memn_spec i0 todo) Hi0); reflexivity). rewrite <- Edi.
  unfold truncated, ksel in Htr. fold h in Htr. destruct (Nat.ltb_spec i0 h) as [H0|H0].
  - destruct Htr as [Htr|Htr]; [apply (HL0 i0); lia|]. replace i0 with (h - 1 - (h - 1 - i0))%nat by lia. apply HR0. lia.
  - destruct Htr as [Htr|Htr].
    + replace i0 with (h + (i0 - h))%nat by lia. apply HL0. lia.
    + replace i0 with (h + (h - 1 - (h - 1 - (i0 - h))))%nat by lia. apply HR0. lia.
Qed.

(** *** the boundary matrices *)
Lemma sp_t_t m : sp_t (sp_t m) = m.
Proof.
  destruct m as [g r c l]. unfold sp_t. cbn [s_tag s_rows s_cols s_ent]. f_equal. rewrite map_map. transitivity (map (fun e => e) l); [|apply map_id].
  apply map_ext. intros [[a b] v]. reflexivity.
Qed.
Lemma boundary_s_transpose g w n L method : bank_ok w L ->
  construct_boundary_s LA g w n method = (let* a := construct_boundary_a LA g w n method in Ok (sp_t a)).
Proof.
  intros B. unfold construct_boundary_s, construct_boundary_a, construct_s, construct_a.
  rewrite (ob_rec_lo _ _ _ _ _ B), (ob_rec_hi _ _ _ _ _ B), !rev_involutive. rewrite rev_length.
  destruct (squeezed (dec_lo w)) as [lo|]; [|reflexivity]. cbn [rbind]. destruct (squeezed (dec_hi w)) as [hi|]; [|reflexivity]. cbn [rbind].
  destruct (construct_strided_conv_matrix g lo n 2 "sameshift") as [a|]; [|reflexivity]. cbn [rbind].
  destruct (construct_strided_conv_matrix g hi n 2 "sameshift") as [d|]; [|reflexivity]. cbn [rbind].
  destruct (sp_cat a d) as [A|]; [|reflexivity]. cbn [rbind]. rewrite sp_t_t. reflexivity.
Qed.
Lemma boundary_a_ok g w n L method : la_ok LA method -> bank_ok w L -> boundary_independent L (dec_lo w) (dec_hi w) -> (L <= n)%nat -> (n mod 2 = 0)%nat ->
  exists A, construct_boundary_a LA g w n method = Ok A /\ s_tag A = g /\ s_rows A = n /\ s_cols A = n /\ s_wf A /\ orthogonal n (mget A) /\
  (forall i c, (i < n)%nat -> (c < n)%nat -> ~ truncated L n i -> mget A i c = rowv (fsel w n i) L (ksel n i) c).
Proof.
  intros HLA B HI Hn Hne. pose proof (ob_even _ _ _ _ _ B) as He. pose proof (ob_two _ _ _ _ _ B) as H2.
  pose proof (Nat.div_mod L 2 ltac:(lia)) as DL. rewrite He in DL. pose proof (Nat.div_mod n 2 ltac:(lia)) as Dn. rewrite Hne in Dn.
  destruct (construct_a_ok g w n L B ltac:(lia) Hne) as (A & EA & A1 & A2 & A3 & A4 & A5 & A6).
  unfold construct_boundary_a. rewrite EA. cbn [rbind]. rewrite (ob_len_lo _ _ _ _ _ B).
  pose proof (stored_count A n L He H2 Hn Hne A2 A3 A6) as Hto.
  destruct (orthogonalize_ok LA HD A n L method HLA A4 A2 A3) as (r & Er & R1 & R2 & R3 & R4 & R5 & R6 & _).
  - intros _ Hnil. apply Hto. split; [lia|]. destruct (get_to_orthogonalize A L) as [|i l]; [congruence|]. destruct (proj1 (Hto i) (or_introl eq_refl)) as [Hi Htr].
    unfold truncated in Htr |- *. right. unfold ksel in Htr |- *. destruct (Nat.ltb_spec i (n / 2)); destruct (Nat.ltb_spec (n - 1) (n / 2)); lia.
  - intros i k Hi Hk Hnot. rewrite (dot_ext n _ (rowv (fsel w n i) L (ksel n i)) _ (rowv (fsel w n k) L (ksel n k))) by (intros; apply A5; assumption).
    assert (~ truncated L n i) by (intros Ht; apply Hnot, Hto; split; assumption). unfold truncated in H.
    apply raw_dot; auto; lia.
  - intros c Hc. apply (raw_independent w L n (get_to_orthogonalize A L) B HI Hn Hne (get_to_nodup A L) Hto). intros j Hj. rewrite <- (Hc j Hj).
    apply sumL_ext. intros i Hi. apply Hto in Hi. rewrite A5 by tauto. reflexivity.
  - exists r. split; [exact Er|]. repeat split; auto; try congruence.
    + apply (orthonormal_rows_orthogonal HD n (mget r) R6).
    + intros i c Hi Hc Hnt. rewrite R5; [apply A5; assumption|]. intros Hin. apply Hto in Hin. tauto.
Qed.
End Indep.
End BD.
