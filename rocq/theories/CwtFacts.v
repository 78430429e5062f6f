(** Facts about the cwt model: the convolution theorem, the sampling positions, one round of the loop. *)
From Coq Require Import List Arith ZArith QArith Qround Lia Bool.
From Verif Require Import Base Sums Tensor TensorFacts CoreFacts Plumb Synthesis Learn Cwt SpecCwt.
Import ListNotations.
Local Open Scope nat_scope.

(** * Sampling positions *)
Lemma filter_prefix (p : nat -> bool) : (forall i j, i < j -> p j = true -> p i = true) -> forall c,
  exists M, filter p (seq 0 c) = seq 0 M /\ forall k, k < M <-> k < c /\ p k = true.
Proof.
  intros Hp. induction c as [|c (M & E & H)]; [exists 0; split; [reflexivity|intros; lia]|].
  rewrite seq_S, filter_app, E. cbn. destruct (p c) eqn:Ec.
  - assert (M = c). { assert (HM : M <= c) by (destruct (Nat.le_gt_cases M c) as [|G]; [assumption|]; apply H in G; lia).
      destruct (Nat.eq_dec M c); [assumption|]. assert (X : M < M); [|lia]. apply H. split; [lia|]. apply (Hp M c); [lia|exact Ec]. }
    subst. exists (S c). split; [rewrite seq_S; reflexivity|]. intros k. split; [|intros [? _]; lia]. intros Hk. split; [lia|].
    destruct (Nat.eq_dec k c) as [->|]; [exact Ec|]. apply (Hp k c); [lia|exact Ec].
  - exists M. rewrite app_nil_r. split; [reflexivity|]. intros k. rewrite H. split; [intros [? ?]; split; [lia|assumption]|].
    intros [? ?]. split; [|assumption]. destruct (Nat.eq_dec k c) as [->|]; [congruence|lia].
Qed.
Lemma floor_lt q z : (Qfloor q < z)%Z <-> (q < inject_Z z)%Q.
Proof.
  split; intros H.
  - apply Qlt_le_trans with (inject_Z (Qfloor q + 1)); [apply Qlt_floor|]. rewrite <- Zle_Qle. lia.
  - pose proof (Qfloor_le q) as F. assert (X : (inject_Z (Qfloor q) < inject_Z z)%Q) by (eapply Qle_lt_trans; eauto). rewrite <- Zlt_Qlt in X. exact X.
Qed.
Lemma lt_ceiling z q : (z < Qceiling q)%Z <-> (inject_Z z < q)%Q.
Proof.
  split; intros H.
  - pose proof (Qceiling_lt q) as F. apply Qle_lt_trans with (inject_Z (Qceiling q - 1)); [rewrite <- Zle_Qle; lia|exact F].
  - pose proof (Qle_ceiling q) as F. assert (X : (inject_Z z < inject_Z (Qceiling q))%Q) by (eapply Qlt_le_trans; eauto). rewrite <- Zlt_Qlt in X. exact X.
Qed.
Lemma div_lt a b c : (0 < b)%Q -> ((a / b < c)%Q <-> (a < c * b)%Q).
Proof.
  intros Hb. split; intros H.
  - apply (Qmult_lt_r _ _ b Hb) in H. setoid_replace (a / b * b)%Q with a in H; [exact H|]. field. intros E. rewrite E in Hb. discriminate Hb.
  - apply Qlt_shift_div_r; assumption.
Qed.
Lemma div_mono a b c : (0 < c)%Q -> (a <= b)%Q -> (a / c <= b / c)%Q.
Proof. intros Hc H. unfold Qdiv. apply Qmult_le_compat_r; [exact H|]. apply Qlt_le_weak, Qinv_lt_0_compat, Hc. Qed.
Lemma injn_le i j : i <= j -> (inject_Z (Z.of_nat i) <= inject_Z (Z.of_nat j))%Q.
Proof. intros. rewrite <- Zle_Qle. lia. Qed.

Lemma filter_map {A B} (f : A -> B) (p : B -> bool) l : filter p (map f l) = map f (filter (fun a => p (f a)) l).
Proof. induction l as [|a l IH]; cbn; [reflexivity|]. destruct (p (f a)); cbn; rewrite IH; reflexivity. Qed.
Lemma filter_true {A} (p : A -> bool) l : (forall a, In a l -> p a = true) -> filter p l = l.
Proof. induction l as [|a l IH]; cbn; intros H; [reflexivity|]. rewrite H by auto. rewrite IH by auto. reflexivity. Qed.
Lemma last_map_seq {B} (f : nat -> B) c d : last (map f (seq 0 (S c))) d = f c.
Proof. rewrite seq_S, map_app. cbn. apply last_last. Qed.

(** an increasing grid *)
Definition grid_ok (x : list Q) (step width : Q) : Prop :=
  grid_step x = Ok step /\ width = (last x 0 - hd 0 x)%Q /\ (0 < step)%Q /\ (0 < width)%Q.

Lemma sample_positions_ok P x step width s : grid_ok x step width -> (0 < s)%Q -> 1 <= P ->
  exists M, n_samples P width step s M /\ 1 <= M /\
    sample_positions P x s = Ok (map (fun k => Qfloor (inject_Z (Z.of_nat k) / (s * step))) (seq 0 M)).
Proof.
  intros (Ex & -> & Hst & Hw) Hs HP. unfold sample_positions. rewrite Ex. cbn [rbind]. set (e := (s * (last x 0 - hd 0 x) + 1)%Q).
  set (c := (s * step)%Q). assert (Hc : (0 < c)%Q) by (unfold c; apply Qmult_lt_0_compat; assumption).
  assert (Hsw : (0 < s * (last x 0 - hd 0 x))%Q) by (apply Qmult_lt_0_compat; assumption).
  assert (He : (1 < e)%Q). { unfold e. rewrite <- (Qplus_0_l 1) at 1. apply Qplus_lt_le_compat; [exact Hsw|apply Qle_refl]. }
  assert (He0 : (0 <= e)%Q) by (apply Qlt_le_weak; apply Qlt_trans with 1%Q; [reflexivity|exact He]).
  rewrite (proj2 (Qle_bool_iff 0 e) He0). set (cnt := Z.to_nat (Qceiling e)).
  assert (Hk : forall k, k < cnt <-> (inject_Z (Z.of_nat k) < e)%Q). { intros k. unfold cnt. rewrite <- lt_ceiling. lia. }
  assert (Hc0 : 0 < cnt) by (apply Hk; apply Qlt_trans with 1%Q; [reflexivity|exact He]).
  destruct (Nat.eqb_spec cnt 0) as [|_]; [lia|]. destruct (Qeq_bool c 0) eqn:Ec; [apply Qeq_bool_iff in Ec; rewrite Ec in Hc; discriminate Hc|].
  set (f := fun k => Qfloor (inject_Z (Z.of_nat k) / c)).
  set (p := fun k => (f k <? Z.of_nat P)%Z).
  assert (Hf : forall i j, i <= j -> (f i <= f j)%Z) by (intros i j H; apply Qfloor_resp_le, div_mono; [exact Hc|apply injn_le; exact H]).
  assert (Hp : forall i j, i < j -> p j = true -> p i = true). { unfold p. intros i j H E. apply Z.ltb_lt in E. apply Z.ltb_lt. specialize (Hf i j). lia. }
  destruct (filter_prefix p Hp cnt) as (M & EM & HM). exists M.
  assert (Hn : n_samples P (last x 0 - hd 0 x)%Q step s M).
  { intros k. rewrite HM, Hk. fold e c. unfold p. rewrite Z.ltb_lt. unfold f. rewrite floor_lt, (div_lt _ c _ Hc). reflexivity. }
  split; [exact Hn|]. split.
  - apply (Hn 0). split; [apply Qlt_trans with 1%Q; [reflexivity|exact He]|]. apply Qmult_lt_0_compat; [|exact Hc]. change 0%Q with (inject_Z 0). rewrite <- Zlt_Qlt. lia.
  - f_equal. fold f.
    assert (G : filter (fun z => (z <? Z.of_nat P)%Z) (map f (seq 0 cnt)) = map f (seq 0 M)) by (rewrite filter_map; fold p; rewrite EM; reflexivity).
    destruct (Z.leb_spec (Z.of_nat P) (last (map f (seq 0 cnt)) 0%Z)) as [_|Hl]; [exact G|]. rewrite <- G. symmetry. apply filter_true.
    intros z Hz. apply in_map_iff in Hz as (k & <- & Hkk). apply in_seq in Hkk. replace cnt with (S (cnt - 1)) in Hl by lia. rewrite last_map_seq in Hl.
    specialize (Hf k (cnt - 1)). lia.
Qed.
Lemma n_samples_unique P width step s M M' : n_samples P width step s M -> n_samples P width step s M' -> M = M'.
Proof.
  intros H H'. destruct (Nat.lt_trichotomy M M') as [L|[L|L]]; [|exact L|].
  - assert (X : M < M); [|lia]. apply H, H', L.
  - assert (X : M' < M'); [|lia]. apply H', H, L.
Qed.

Section Facts.
Context {K : CRing}.
Add Ring Kring : (cr_th K).
Open Scope K_scope.
Implicit Types t u data : tensor K.
Variable C : cplx K.

Lemma kpow_add (x : K) a b : kpow x (a + b) = kpow x a * kpow x b.
Proof. induction b as [|b IH]; [rewrite Nat.add_0_r; cbn; ring|]. rewrite Nat.add_succ_r. cbn. rewrite IH. ring. Qed.
Lemma kpow_mul (x : K) a b : kpow (kpow x a) b = kpow x (a * b).
Proof. induction b as [|b IH]; [rewrite Nat.mul_0_r; reflexivity|]. rewrite Nat.mul_succ_r, kpow_add. cbn. rewrite IH. reflexivity. Qed.
Lemma kpow_one n : kpow (1 : K) n = 1.
Proof. induction n as [|n IH]; [reflexivity|]. cbn. rewrite IH. ring. Qed.

(** [w] is a principal n-th root of unity and [i] the inverse of n *)
Definition unity_root (n : nat) (w i : K) : Prop :=
  kpow w n = 1 /\ (forall e, (0 < e < n)%nat -> sumf n (fun q => kpow w (q * e)) = 0) /\ i * sumf n (fun _ => 1) = 1.

Lemma kpow_mod n w i e : unity_root n w i -> (0 < n)%nat -> kpow w e = kpow w (e mod n).
Proof.
  intros (H & _) Hn. rewrite (Nat.div_mod e n) at 1 by lia. rewrite kpow_add, <- kpow_mul, H, kpow_one. ring.
Qed.
Lemma root_sum n w i e : unity_root n w i -> (0 < n)%nat -> i * sumf n (fun q => kpow w (q * e)) = if Nat.eqb (e mod n) 0 then 1 else 0.
Proof.
  intros H Hn. pose proof H as (H1 & H2 & H3).
  assert (E : sumf n (fun q => kpow w (q * e)) = sumf n (fun q => kpow w (q * (e mod n)))).
  { apply sumf_ext. intros q _. rewrite (Nat.mul_comm q e), <- kpow_mul, (kpow_mod n w i e H Hn), kpow_mul, Nat.mul_comm. reflexivity. }
  rewrite E. pose proof (Nat.mod_upper_bound e n). destruct (Nat.eqb_spec (e mod n) 0) as [->|Hz].
  - rewrite <- H3. f_equal. apply sumf_ext. intros q _. rewrite Nat.mul_0_r. reflexivity.
  - rewrite H2 by lia. ring.
Qed.
(** the convolution theorem for zero-padded sequences: no wrap-around when N >= n + m - 1 *)
Lemma convolution_theorem N w i n m (f g : nat -> K) k : unity_root N w i -> (n + m - 1 <= N)%nat -> (k < N)%nat ->
  i * sumf N (fun q => (sumf N (fun j => (if Nat.ltb j n then f j else 0) * kpow w (j * q))) *
                       (sumf N (fun j => (if Nat.ltb j m then g j else 0) * kpow w (j * q))) * kpow (kpow w (N - 1)) (q * k)) =
  lin_conv n m f g k.
Proof.
  intros Hr HN Hk.
  set (F := fun j => if Nat.ltb j n then f j else 0). set (G := fun j => if Nat.ltb j m then g j else 0).
  transitivity (sumf N (fun a => sumf N (fun b => F a * G b * (i * sumf N (fun q => kpow w (q * (a + b + (N - 1) * k))))))).
  - transitivity (sumf N (fun q => sumf N (fun a => sumf N (fun b => i * (F a * G b * kpow w (q * (a + b + (N - 1) * k))))))).
    + rewrite <- sumf_mul_l. apply sumf_ext. intros q _. rewrite <- sumf_mul_r, <- sumf_mul_r, <- sumf_mul_l. apply sumf_ext. intros a _.
      rewrite <- sumf_mul_l, <- sumf_mul_r, <- sumf_mul_l. apply sumf_ext. intros b _. rewrite kpow_mul.
      replace (q * (a + b + (N - 1) * k))%nat with (a * q + b * q + (N - 1) * (q * k))%nat by ring. rewrite !kpow_add. unfold F, G. ring.
    + rewrite sumf_swap. apply sumf_ext. intros a _. rewrite sumf_swap. apply sumf_ext. intros b _. rewrite <- !sumf_mul_l. apply sumf_ext. intros q _. ring.
  - transitivity (sumf N (fun a => sumf N (fun b => F a * G b * (if Nat.eqb (a + b) k then 1 else 0)))).
    + apply sumf_ext. intros a Ha. apply sumf_ext. intros b Hb. unfold F, G.
      destruct (Nat.ltb_spec a n); [|ring]. destruct (Nat.ltb_spec b m); [|ring]. rewrite (root_sum N w i) by (assumption || lia). do 2 f_equal.
      assert (Hab : (a + b < N)%nat) by lia.
      destruct (Nat.eqb_spec (a + b) k) as [<-|Hne].
      * replace (a + b + (N - 1) * (a + b))%nat with ((a + b) * N)%nat by (destruct N; [lia|]; cbn; rewrite Nat.sub_0_r; ring). rewrite Nat.mod_mul by lia. reflexivity.
      * destruct (Nat.eqb_spec ((a + b + (N - 1) * k) mod N) 0) as [Z|_]; [|reflexivity]. exfalso. apply Hne. apply Nat.mod_divide in Z; [|lia]. destruct Z as [z Z].
        assert (Z' : (a + b + N * k = z * N + k)%nat) by (rewrite <- Z; destruct N; [lia|]; cbn; rewrite Nat.sub_0_r; ring).
        assert (X : ((a + b + N * k) mod N = (z * N + k) mod N)%nat) by (rewrite Z'; reflexivity).
        rewrite (Nat.mul_comm N k), Nat.mod_add, Nat.add_comm, (Nat.add_comm (z * N)), Nat.mod_add in X by lia. rewrite !Nat.mod_small in X by lia. lia.
    + assert (B : forall a, (a < N)%nat -> sumf N (fun b => F a * G b * (if Nat.eqb (a + b) k then 1 else 0)) =
                    if (a <=? k) && (k - a <? m) then F a * g (k - a)%nat else 0).
      { intros a Ha. destruct (Nat.leb_spec a k) as [Hak|Hak]; cbn.
        - rewrite (sumf_single N (k - a)); [|lia|].
          + replace (a + (k - a))%nat with k by lia. rewrite Nat.eqb_refl. unfold G. destruct (Nat.ltb_spec (k - a) m); ring.
          + intros b _ Hb. destruct (Nat.eqb_spec (a + b) k); [lia|ring].
        - apply sumf_zero. intros b _. destruct (Nat.eqb_spec (a + b) k); [lia|ring]. }
      rewrite (sumf_ext N _ _ B). unfold lin_conv.
      destruct (Nat.le_gt_cases n N) as [HnN|HnN].
      * rewrite (sumf_extend n N); [|exact HnN|].
        -- apply sumf_ext. intros a Ha. unfold F. destruct (Nat.ltb_spec a n); [reflexivity|lia].
        -- intros a Ha. unfold F. destruct (Nat.ltb_spec a n); [lia|]. destruct (_ && _)%bool; ring.
      * assert (m = 0)%nat by lia. subst m. symmetry. rewrite sumf_zero; [|intros a _; rewrite andb_false_r; reflexivity].
        symmetry. apply sumf_zero. intros a _. rewrite andb_false_r. reflexivity.
Qed.

Definition cplx_ok : Prop := forall n, (0 < n)%nat -> unity_root n (cx_root C n) (cx_inv C n).

Lemma next_fast_len_ge n : (n <= next_fast_len n)%nat.
Proof.
  unfold next_fast_len. destruct (Nat.eqb_spec n 0); [lia|]. destruct (Nat.eq_dec n 1) as [->|]; [cbn; lia|].
  apply Nat.log2_up_spec. lia.
Qed.
Lemma next_fast_len_pos n : (0 < n)%nat -> (0 < next_fast_len n)%nat.
Proof. pose proof (next_fast_len_ge n). lia. Qed.

Lemma int_psi_scale_ok (psi : list K) x step width s : grid_ok x step width -> (0 < s)%Q -> psi <> [] ->
  exists M, n_samples (length psi) width step s M /\ (1 <= M)%nat /\
    int_psi_scale psi x s = Ok (map (fun r => nth (grid_index step s (M - 1 - r)) psi 0) (seq 0 M)).
Proof.
  intros Hg Hs Hp. assert (HP : (1 <= length psi)%nat) by (destruct psi; [congruence|cbn; lia]).
  destruct (sample_positions_ok (length psi) x step width s Hg Hs HP) as (M & HM & HM1 & E). exists M. split; [exact HM|]. split; [exact HM1|].
  unfold int_psi_scale. rewrite E. cbn [rbind]. pose proof Hg as (_ & _ & Hst & _).
  assert (Hc : (0 < s * step)%Q) by (apply Qmult_lt_0_compat; assumption).
  assert (G : index_tensor psi (map (fun k => Qfloor (inject_Z (Z.of_nat k) / (s * step))) (seq 0 M)) = Ok (map (fun k => nth (grid_index step s k) psi 0) (seq 0 M))).
  { unfold index_tensor. rewrite (rmap_ok _ (fun z => nth (Z.to_nat z) psi 0)); [rewrite map_map; reflexivity|].
    intros z Hz. apply in_map_iff in Hz as (k & <- & Hk). apply in_seq in Hk. assert (Hk' : (k < M)%nat) by lia. cbv zeta.
    apply HM in Hk' as [_ Hk']. apply (div_lt _ _ _ Hc) in Hk'. apply floor_lt in Hk'.
    assert (H0 : (0 <= Qfloor (inject_Z (Z.of_nat k) / (s * step)))%Z).
    { change 0%Z with (Qfloor 0). apply Qfloor_resp_le. apply Qle_shift_div_l; [exact Hc|]. rewrite Qmult_0_l. change 0%Q with (inject_Z 0). rewrite <- Zle_Qle. lia. }
    rewrite (proj2 (Z.leb_le _ _) H0), (proj2 (Z.ltb_lt _ _) Hk'). reflexivity. }
  rewrite G. cbn [rbind]. f_equal. apply nth_ext_len with (d := 0); rewrite ?rev_length, ?map_length, ?seq_length; [reflexivity|].
  intros r Hr. rewrite rev_nth by (rewrite map_length, seq_length; exact Hr). rewrite map_length, seq_length.
  rewrite !nth_map_seq by lia. f_equal. f_equal. lia.
Qed.

Definition row_of (data : tensor K) (psi : nat -> K) (step s : Q) (M : nat) (t : tensor K) : Prop :=
  wf t /\ ttag t = ttag data /\ shp t = shp data /\
  forall idx, valid idx (shp data) ->
    get t idx = cwt_value (cx_sqrt C s) psi step s M (tlast data) (fun j => get data (iput data j idx)) (ilast data idx).
Definition cache_ok (data : tensor K) (st : fft_cache) : Prop :=
  match st with None => True | Some (N, fd) => fft C data N = Ok fd end.

Lemma fft_ok t N : (1 <= rank t)%nat -> (0 < N)%nat -> exists u, fft C t N = Ok u /\ wf u /\ ttag u = ttag t /\ shp u = updn (rank t - 1) N (shp t) /\
  forall idx, valid idx (shp u) -> get u idx = sumf N (fun j => (if Nat.ltb j (tlast t) then get t (iput t j idx) else 0) * kpow (cx_root C N) (j * ilast t idx)).
Proof.
  intros Hr HN. unfold fft. destruct (Nat.eqb_spec (rank t) 0); [lia|]. destruct (Nat.eqb_spec N 0); [lia|].
  eexists. split; [reflexivity|]. split; [apply wf_make|]. split; [apply ttag_make|]. rewrite shp_make. split; [reflexivity|]. intros idx H. rewrite get_make by exact H. reflexivity.
Qed.

Lemma tlast_updn t v u : shp u = updn (rank t - 1) v (shp t) -> (1 <= rank t)%nat -> tlast u = v /\ rank u = rank t.
Proof.
  intros E Hr. assert (Er : rank u = rank t) by (unfold rank; rewrite E; apply updn_length). split; [|exact Er].
  unfold tlast. rewrite Er, E. apply nth_updn_eq. unfold rank in *. lia.
Qed.

(** the product of the transforms, back-transformed, is the linear convolution *)
Lemma fft_conv data (w : list K) N fd : cplx_ok -> (1 <= rank data)%nat -> (0 < N)%nat -> (tlast data + length w - 1 <= N)%nat -> fft C data N = Ok fd ->
  exists fw p c, fft C (mkT (ttag data) [length w] w) N = Ok fw /\ mul_last fw fd = Ok p /\ ifft C p = Ok c /\
    wf c /\ ttag c = ttag data /\ shp c = updn (rank data - 1) N (shp data) /\
    forall idx, valid idx (shp c) -> get c idx = lin_conv (tlast data) (length w) (fun j => get data (iput data j idx)) (fun r => nth r w 0) (ilast data idx).
Proof.
  intros HC Hr HN Hsz Hfd. set (d := (rank data - 1)%nat).
  destruct (fft_ok data N Hr HN) as (fd' & E1 & W1 & T1 & S1 & G1). rewrite E1 in Hfd. injection Hfd as ->.
  set (tw := mkT (ttag data) [length w] w). assert (Hrw : rank tw = 1%nat) by reflexivity.
  destruct (fft_ok tw N ltac:(lia) HN) as (fw & E2 & W2 & T2 & S2 & G2).
  exists fw. assert (Sw : shp fw = [N]) by (rewrite S2, Hrw; reflexivity).
  assert (Lw : tlast fw = N) by (unfold tlast, rank; rewrite Sw; reflexivity).
  destruct (tlast_updn data N fd S1 Hr) as [Ld Rd].
  unfold mul_last. rewrite Lw, Ld, Nat.eqb_refl, Rd. cbn [orb]. fold d in S1 |- *.
  assert (Sd : updn d (if (N =? 1)%nat then N else N) (shp fd) = updn d N (shp data)) by (destruct (N =? 1)%nat; rewrite S1; apply updn_updn).
  match goal with |- context [tmake ?g ?s ?f] => remember (tmake g s f) as p eqn:Ep end. exists p.
  assert (Sp : shp p = updn d N (shp data)) by (rewrite Ep, shp_make; exact Sd).
  destruct (tlast_updn data N p Sp Hr) as [Lp Rp].
  unfold ifft. rewrite Lp. destruct (Nat.eqb_spec N 0); [lia|]. eexists. split; [exact E2|]. split; [reflexivity|]. split; [reflexivity|].
  split; [apply wf_make|]. split; [rewrite ttag_make, Ep, ttag_make; exact T1|]. rewrite shp_make. split; [exact Sp|]. intros idx Hv0.
  assert (Hv : valid idx (updn d N (shp data))) by (rewrite <- Sp; exact Hv0). rewrite get_make by exact Hv0.
  assert (Hlast : (nth d idx 0 < N)%nat).
  { pose proof (valid_nth _ _ d Hv) as X. rewrite updn_length in X. unfold rank in Hr. specialize (X ltac:(unfold d, rank; lia)). rewrite nth_updn_eq in X by (unfold d, rank; lia). exact X. }
  assert (Hq : forall q, (q < N)%nat -> valid (updn d q idx) (updn d N (shp data))).
  { intros q Hq. rewrite <- (updn_updn d N N). apply valid_updn; assumption. }
  rewrite <- (convolution_theorem N (cx_root C N) (cx_inv C N)); [|apply HC; lia|exact Hsz|exact Hlast].
  f_equal. apply sumf_ext. intros q Hqq. unfold iput, ilast. rewrite Rp. fold d. f_equal. 
  rewrite Ep. rewrite get_make by (rewrite Sd; apply Hq; exact Hqq). cbv zeta. unfold ilast, iput. rewrite Rd. fold d.
  assert (Hdl : (d < length idx)%nat) by (rewrite (valid_length _ _ Hv), updn_length; unfold d, rank in *; lia).
  rewrite (nth_updn_eq d q idx 0%nat) by exact Hdl.
  replace (if (N =? 1)%nat then 0%nat else q) with q by (destruct (Nat.eqb_spec N 1); lia).
  replace (if (N =? 1)%nat then updn d 0%nat (updn d q idx) else updn d q idx) with (updn d q idx)
    by (destruct (Nat.eqb_spec N 1); [|reflexivity]; replace q with 0%nat by lia; symmetry; apply updn_updn).
  rewrite (G1 (updn d q idx)) by (rewrite S1; apply Hq; exact Hqq).
  rewrite (G2 [q]) by (rewrite Sw; repeat constructor; exact Hqq).
  match goal with |- ?a * ?b = _ => replace (a * b) with (b * a) by ring end. f_equal.
  - apply sumf_ext. intros j Hj. unfold iput, ilast. fold d. rewrite updn_updn, nth_updn_eq by exact Hdl. reflexivity.
  - apply sumf_ext. intros j Hj. unfold get, iput, ilast, tlast. cbn. rewrite ?Nat.mul_1_r, ?Nat.add_0_r. reflexivity.
Qed.

Lemma cwt_step_ok data (psi : list K) x step width s M st : cplx_ok -> (1 <= rank data)%nat -> wf data -> grid_ok x step width -> (0 < s)%Q -> psi <> [] ->
  n_samples (length psi) width step s M -> cache_ok data st -> (1 <= tlast data \/ 2 <= M)%nat ->
  if Nat.eqb M 1 then cwt_step C data psi x st s = Raise ValueError
  else exists st' t, cwt_step C data psi x st s = Ok (st', t) /\ cache_ok data st' /\ row_of data (fun k => nth k psi 0) step s M t.
Proof.
  intros HC Hr Hwf Hg Hs Hp HM Hst Hn. destruct (int_psi_scale_ok psi x step width s Hg Hs Hp) as (M' & HM' & HM1 & E).
  assert (M' = M) by (eapply n_samples_unique; eauto). subst M'. unfold cwt_step. rewrite E. cbn [rbind].
  set (w := map _ (seq 0 M)) in *. assert (Lw : length w = M) by (unfold w; rewrite map_length, seq_length; reflexivity).
  destruct (Nat.eqb_spec (rank data) 0) as [|_]; [lia|]. cbv zeta. rewrite Lw.
  set (n := tlast data). set (N := next_fast_len (n + M - 1)).
  assert (HN : (0 < N)%nat) by (apply next_fast_len_pos; unfold n; lia).
  assert (HN' : (n + M - 1 <= N)%nat) by apply next_fast_len_ge.
  destruct (fft_ok data N Hr HN) as (fd & Efd & _).
  assert (Ecache : match st with Some (size0, fd0) => if Nat.eqb N size0 then Ok fd0 else fft C data N | None => fft C data N end = Ok fd).
  { destruct st as [[N0 fd0]|]; [|exact Efd]. destruct (Nat.eqb_spec N N0) as [<-|_]; [|exact Efd]. cbn in Hst. congruence. }
  rewrite Ecache. cbn [rbind].
  destruct (fft_conv data w N fd HC Hr HN) as (fw & p & c & E2 & E3 & E4 & Wc & Tc & Sc & Gc); [rewrite Lw; exact HN'|exact Efd|].
  rewrite Lw in E2. rewrite E2. cbn [rbind]. rewrite E3. cbn [rbind]. rewrite E4. cbn [rbind]. clear E2 E3 E4.
  set (d := (rank data - 1)%nat) in *.
  destruct (tlast_updn data N c Sc Hr) as [Lc Rc]. set (L := (n + M - 1)%nat) in *.
  set (cv := take_last c L).
  assert (Scv : shp cv = updn d L (shp data)). { unfold cv, take_last, narrow. rewrite shp_make, Rc, Lc, Sc. fold d. rewrite updn_updn, Nat.min_l by exact HN'. reflexivity. }
  destruct (tlast_updn data L cv Scv Hr) as [Lcv Rcv].
  set (co := tscale (- cx_sqrt C s) (tdiff cv)).
  assert (Sco : shp co = updn d (L - 1)%nat (shp data)). { unfold co, tscale, tdiff. rewrite !shp_make, Rcv, Lcv, Scv. fold d. rewrite updn_updn. reflexivity. }
  destruct (tlast_updn data (L - 1) co Sco Hr) as [Lco Rco]. rewrite Lco, Rco. fold d.
  assert (Hdl : (d < length (shp data))%nat) by (unfold d, rank in *; lia).
  set (y := fun idx => lin_conv n M (fun j => get data (iput data j idx)) (fun r => nth r w 0)).
  assert (Gcv : forall idx k, valid idx (shp cv) -> nth d idx 0%nat = k -> get cv idx = y idx k).
  { intros idx k Hv Hk. unfold cv, take_last. rewrite Lc, Nat.min_l, Rc by exact HN'. fold d. rewrite get_narrow by (rewrite Sc, updn_updn, <- Scv; exact Hv).
    rewrite Nat.add_0_r, updn_same. rewrite Gc.
    - rewrite Lw. fold n. unfold y, ilast. fold d. rewrite Hk. reflexivity.
    - rewrite Sc. rewrite Scv in Hv. apply valid_intro; [rewrite (valid_length _ _ Hv), !updn_length; reflexivity|].
      intros e He. rewrite updn_length in He. pose proof (valid_nth _ _ e Hv) as X. rewrite updn_length in X. specialize (X He). destruct (Nat.eq_dec e d) as [->|Hne].
      + rewrite nth_updn_eq in X |- * by exact Hdl. lia.
      + rewrite nth_updn_ne in X |- * by exact Hne. exact X. }
  assert (Gco : forall idx k, valid idx (shp co) -> nth d idx 0%nat = k -> get co idx = - cx_sqrt C s * (y idx (S k) - y idx k)).
  { intros idx k Hv Hk. unfold co, tscale. rewrite get_make by exact Hv. f_equal. unfold tdiff.
    assert (Hdi : (d < length idx)%nat) by (rewrite (valid_length _ _ Hv), Sco, updn_length; exact Hdl).
    assert (Hkl : (k < L - 1)%nat) by (rewrite <- Hk; pose proof (valid_nth _ _ d Hv) as X; rewrite Sco, updn_length, nth_updn_eq in X by exact Hdl; apply X; exact Hdl).
    assert (V : forall z, (z < L)%nat -> valid (updn d z idx) (shp cv)).
    { intros z Hz. rewrite Scv. rewrite Sco in Hv. rewrite <- (updn_updn d L (L - 1)%nat). apply valid_updn; assumption. }
    rewrite get_make by (exact Hv). unfold iput, ilast. rewrite Rcv. fold d. rewrite Hk.
    rewrite (Gcv (updn d (S k) idx) (S k)); [|apply V; lia|apply nth_updn_eq; exact Hdi].
    rewrite (Gcv idx k); [|rewrite <- (updn_same d idx 0%nat), Hk; apply V; lia|exact Hk].
    f_equal. unfold y, lin_conv. apply sumf_ext. intros j _. unfold iput. fold d. rewrite updn_updn. reflexivity. }
  assert (Wco : wf co) by apply wf_make.
  assert (Tco : ttag co = ttag data) by (unfold co, tscale, tdiff, cv, take_last, narrow; rewrite !ttag_make; exact Tc).
  clearbody co. clearbody cv.
  assert (Final : forall idx a, valid idx (shp data) -> a = ((M - 2) / 2)%nat -> - cx_sqrt C s * (y idx (S (nth d idx 0 + a)%nat) - y idx (nth d idx 0 + a)%nat) =
     cwt_value (cx_sqrt C s) (fun k => nth k psi 0) step s M n (fun j => get data (iput data j idx)) (nth d idx 0%nat)).
  { intros idx a Hv ->. unfold cwt_value. cbv zeta. rewrite Nat.add_1_r.
    assert (Ew : forall k, y idx k = lin_conv n M (fun j => get data (iput data j idx)) (fun r => nth (grid_index step s (M - 1 - r)) psi 0) k).
    { intros k. unfold y, lin_conv. apply sumf_ext. intros i _. destruct ((i <=? k)%nat && (k - i <? M)%nat)%bool eqn:Eb; [|reflexivity].
      apply andb_prop in Eb as [_ Eb]. apply Nat.ltb_lt in Eb. unfold w. rewrite nth_map_seq by exact Eb. reflexivity. }
    rewrite !Ew. reflexivity. }
  destruct (Nat.eqb_spec M 1) as [->|HM2].
  - destruct (Nat.ltb_spec n (L - 1)); [unfold L in *; lia|]. destruct (Nat.ltb_spec (L - 1) n); [reflexivity|]. unfold L, n in *; lia.
  - destruct (Nat.ltb_spec n (L - 1)) as [Hlt|Hge].
    + eexists. eexists. split; [reflexivity|]. split; [exact Efd|]. set (a := ((L - 1 - n) / 2)%nat). 
      assert (Ea : a = ((M - 2) / 2)%nat) by (unfold a, L; f_equal; unfold L in Hlt; lia).
      replace (L - 1 - (L - 1 - n + 1) / 2 - a)%nat with n by (unfold a, L in *; lia).
      assert (Sn : shp (narrow co d a n) = shp data) by (unfold narrow; rewrite shp_make, Sco, updn_updn; unfold n, tlast; fold d; apply updn_same).
      split; [apply wf_make|]. split; [|split; [exact Sn|]].
      * unfold narrow. rewrite ttag_make. exact Tco.
      * intros idx Hv. unfold narrow. rewrite get_make by (rewrite <- Sn in Hv; exact Hv).
        assert (Hdi : (d < length idx)%nat) by (rewrite (valid_length _ _ Hv); exact Hdl).
        assert (Hki : (nth d idx 0 < n)%nat) by (apply (valid_nth _ _ d Hv); exact Hdl).
        rewrite (Gco (updn d (nth d idx 0 + a)%nat idx) (nth d idx 0 + a)%nat).
        -- assert (Ey : forall k, y (updn d (nth d idx 0 + a)%nat idx) k = y idx k) by (intros k; unfold y, lin_conv; apply sumf_ext; intros j _; unfold iput; fold d; rewrite updn_updn; reflexivity).
           rewrite !Ey. apply Final; assumption.
        -- rewrite Sco. apply valid_updn; [exact Hv|]. unfold a, L in *. lia.
        -- apply nth_updn_eq. exact Hdi.
    + destruct (Nat.ltb_spec (L - 1) n) as [|_]; [unfold L in *; lia|]. eexists. eexists. split; [reflexivity|]. split; [exact Efd|].
      assert (EL : (L - 1 = n)%nat) by (unfold L in *; lia).
      assert (Sn : shp co = shp data) by (rewrite Sco, EL; unfold n, tlast; fold d; apply updn_same).
      split; [exact Wco|]. split; [exact Tco|]. split; [exact Sn|]. intros idx Hv. rewrite (Gco idx (nth d idx 0%nat)); [|rewrite Sn; exact Hv|reflexivity].
      etransitivity; [|apply (Final idx 0%nat Hv)]; [rewrite Nat.add_0_r; reflexivity|]. replace (M - 2)%nat with 0%nat by (unfold L in *; lia). reflexivity.
Qed.
End Facts.
