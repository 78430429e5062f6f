(** C86: with zero padding every coefficient of every level is the correlation of the signal with one fixed filter,
    the iterated filter of that level (the discrete scaling function / wavelet). *)
From Coq Require Import List Arith ZArith Lia Bool Ascii String Ring.
From Coq Require Import ZifyNat ZifyBool.
From Verif Require Import Base Sums Tensor TensorFacts Util Perm Plumb Accept Spec Conv1 PadFacts CoreFacts Analysis AnalysisInv PRKernel Synthesis Filters Wave1 Wave1Inv Rec1 Rec1Inv Lin Examples Props1 Conv2 Conv3 Spec2 WaveN RecN Props2 Sep SpecSep SepFacts SepRec SepRec2 SepRec3 PropsSep Unified RecNInv UnifiedRec PropsConst PropsLocal SpecMat PropsMat1 Boundary EnergyN PropsLocalRec Polyphase PropsAdjoint PropsFlip.
Import ListNotations.

Section Iter.
Context {K : CRing}.
Add Ring Kring : (cr_th K).
Local Open Scope K_scope.
Implicit Types (x u : tensor K) (w : wavelet K) (lo hi f : list K).

(** the low-pass filter iterated j times, each time upsampled by two; and its last step with another filter *)
Fixpoint iter_lo lo (j : nat) (z : Z) : K :=
  match j with
  | O => if Z.eqb z 0 then 1 else 0
  | S j' => sumf (List.length lo) (fun m => nth m lo 0 * iter_lo lo j' (z - 2 ^ Z.of_nat j' * Z.of_nat m))
  end.
Definition iter_last lo f (j : nat) (z : Z) : K :=
  sumf (List.length f) (fun m => nth m f 0 * iter_lo lo (j - 1) (z - 2 ^ Z.of_nat (j - 1) * Z.of_nat m)).
(** product of one value per axis *)
Fixpoint prodz (gs : list (Z -> K)) (zs : list Z) : K :=
  match gs, zs with g :: gs', z :: zs' => g z * prodz gs' zs' | _, _ => 1 end.
(** coefficient k (per axis) = sum over the samples o of x[o] g[2^j (k+1) - 1 - o] *)
Definition correlate (L : nat) (gs : list (Z -> K)) (j : nat) (nax : list nat) x : tensor K :=
  let ns := gather nax 0%nat (shp x) in
  tmake (ttag x) (upds nax (map (len_after L j) ns) (shp x)) (fun idx =>
    sumI ns (fun os => get x (upds nax os idx) *
      prodz gs (map2 (fun k o => 2 ^ Z.of_nat j * (Z.of_nat k + 1) - 1 - Z.of_nat o)%Z (gather nax 0%nat idx) os))).

Lemma iter_S lo j z : iter_lo lo (S j) z = iter_last lo lo (S j) z.
Proof. unfold iter_last. rewrite Nat.sub_succ, Nat.sub_0_r. reflexivity. Qed.
Lemma iter_support lo L j z : List.length lo = L -> (1 <= L)%nat -> (z < 0 \/ (2 ^ Z.of_nat j - 1) * (Z.of_nat L - 1) < z)%Z -> iter_lo lo j z = 0.
Proof.
  intros Hlo HL. revert z. induction j as [|j IH]; intros z H; cbn [iter_lo].
  - replace (Z.eqb z 0) with false; [reflexivity|]. change (2 ^ Z.of_nat 0)%Z with 1%Z in H. lia.
  - apply sumf_zero. intros m Hm. rewrite IH; [ring|]. rewrite Hlo in Hm. pose proof (Z.pow_pos_nonneg 2 (Z.of_nat j) ltac:(lia) ltac:(lia)) as P.
    rewrite Nat2Z.inj_succ, Z.pow_succ_r in H by lia. destruct H as [H|H]; [left; nia|right; nia].
Qed.
Lemma len_after_big L j : (2 <= L)%nat -> forall n, (Z.of_nat n - Z.of_nat L + 2 <= 2 ^ Z.of_nat j * (Z.of_nat (len_after L j n) - Z.of_nat L + 2))%Z.
Proof.
  intros HL. induction j as [|j IH]; intros n; [change (2 ^ Z.of_nat 0)%Z with 1%Z; cbn [len_after]; lia|].
  cbn [len_after]. specialize (IH (dwt_len L n)). rewrite Nat2Z.inj_succ, Z.pow_succ_r by lia.
  assert (D : (Z.of_nat n + Z.of_nat L - 2 <= 2 * Z.of_nat (dwt_len L n))%Z).
  { unfold dwt_len. pose proof (Nat.div_mod (n + L - 1) 2 ltac:(lia)) as E. pose proof (Nat.mod_upper_bound (n + L - 1) 2 ltac:(lia)). lia. }
  lia.
Qed.

(** the zero extension of the samples, written as a sum *)
Notation pos j := (fun z o => (2 ^ Z.of_nat j * (z + 1) - 1 - Z.of_nat o)%Z).
Lemma ext_zero_sum : forall s (X : list nat -> K) lo zs, List.length zs = List.length s ->
  ext_get Mzero s X zs = sumI s (fun os => X os * prodz (repeat (iter_lo lo 0) (List.length s)) (map2 (pos O) zs os)).
Proof.
  unfold ext_get. induction s as [|n s IH]; intros X lo [|z zs] H; try discriminate; [cbn; ring|]. cbn [ext_idxs ext_idx List.length repeat sumI].
  destruct ((0 <=? z) && (z <? Z.of_nat n))%Z eqn:E.
  - rewrite (sumf_single n (Z.to_nat z)); [|lia|].
    + specialize (IH (fun is => X (Z.to_nat z :: is)) lo zs ltac:(cbn in H; lia)). etransitivity; [|etransitivity; [exact IH|]].
      * destruct (ext_idxs Mzero s zs); reflexivity.
      * apply sumI_ext. intros os _. cbn [map2 prodz iter_lo]. change (2 ^ Z.of_nat 0)%Z with 1%Z. replace (1 * (z + 1) - 1 - Z.of_nat (Z.to_nat z) =? 0)%Z with true by lia. ring.
    + intros o Ho Hne. apply sumI_zero. intros os _. cbn [map2 prodz iter_lo]. change (2 ^ Z.of_nat 0)%Z with 1%Z. replace (1 * (z + 1) - 1 - Z.of_nat o =? 0)%Z with false by lia. ring.
  - symmetry. apply sumf_zero. intros o Ho. apply sumI_zero. intros os _. cbn [map2 prodz iter_lo]. change (2 ^ Z.of_nat 0)%Z with 1%Z. replace (1 * (z + 1) - 1 - Z.of_nat o =? 0)%Z with false by lia. ring.
Qed.
(** one more level multiplies the filters axis by axis *)
Lemma conv_axes lo j : forall (fs : list (list K)) (ks : list nat) (os : list nat), List.length ks = List.length fs -> List.length os = List.length fs ->
  sumI (map (@List.length K) fs) (fun js => taps fs js * prodz (repeat (iter_lo lo j) (List.length fs)) (map2 (pos j) (map2 (fun k i => (2 * Z.of_nat k + 1 - Z.of_nat i)%Z) ks js) os))
  = prodz (map (fun f => iter_last lo f (S j)) fs) (map2 (pos (S j)) (map Z.of_nat ks) os).
Proof.
  induction fs as [|f fs IH]; intros [|k ks] [|o os] H1 H2; try discriminate; [cbn; ring|]. cbn [map sumI List.length repeat map2 prodz].
  rewrite <- (IH ks os) by (cbn in *; lia). unfold iter_last. rewrite Nat.sub_succ, Nat.sub_0_r. rewrite <- sumf_mul_r. apply sumf_ext. intros m Hm. rewrite <- sumI_mul_l. apply sumI_ext. intros js _. cbn [taps map2 prodz].
  replace (2 ^ Z.of_nat j * (2 * Z.of_nat k + 1 - Z.of_nat m + 1) - 1 - Z.of_nat o)%Z with (2 ^ Z.of_nat (S j) * (Z.of_nat k + 1) - 1 - Z.of_nat o - 2 ^ Z.of_nat j * Z.of_nat m)%Z; [ring|].
  rewrite Nat2Z.inj_succ, Z.pow_succ_r by lia. ring.
Qed.
Lemma out_zero lo L j : List.length lo = L -> (2 <= L)%nat -> forall s zs os, List.length zs = List.length s -> valid os s ->
  ext_idxs Mzero (map (len_after L j) s) zs = None -> prodz (repeat (iter_lo lo j) (List.length s)) (map2 (pos j) zs os) = 0.
Proof.
  intros Hlo HL. induction s as [|n s IH]; intros [|z zs] os Hl Hv H; inversion Hv as [|o ? os' ? Ho Hos]; subst os; try discriminate. cbn [map ext_idxs ext_idx List.length repeat map2 prodz] in *.
  destruct ((0 <=? z) && (z <? Z.of_nat (len_after L j n)))%Z eqn:E.
  - rewrite IH; [ring|lia|exact Hos|]. destruct (ext_idxs Mzero (map (len_after L j) s) zs); [discriminate|reflexivity].
  - assert (Z0 : iter_lo lo j (2 ^ Z.of_nat j * (z + 1) - 1 - Z.of_nat o) = 0).
    { apply (iter_support lo L j); [exact Hlo|lia|]. pose proof (len_after_big L j HL n) as B. pose proof (Z.pow_pos_nonneg 2 (Z.of_nat j) ltac:(lia) ltac:(lia)) as P.
      assert (C : (z < 0 \/ Z.of_nat (len_after L j n) <= z)%Z) by lia. destruct C as [C|C]; [left; nia|right; nia]. }
    rewrite Z0. ring.
Qed.
Lemma ext_some_valid : forall s zs is, List.length zs = List.length s -> ext_idxs Mzero s zs = Some is -> valid is s /\ zs = map Z.of_nat is.
Proof.
  induction s as [|n s IH]; intros [|z zs] is Hl H; try discriminate; cbn [ext_idxs ext_idx] in H.
  - injection H as <-. split; [constructor|reflexivity].
  - destruct ((0 <=? z) && (z <? Z.of_nat n))%Z eqn:E; [|discriminate]. destruct (ext_idxs Mzero s zs) as [is'|] eqn:E2; [|discriminate]. injection H as <-.
    destruct (IH zs is' ltac:(cbn in Hl; lia) E2) as [Hv ->]. split; [constructor; [lia|exact Hv]|]. cbn [map]. f_equal. lia.
Qed.

Lemma prodz_ext gs gs' : Forall2 (fun g g' : Z -> K => forall z, g z = g' z) gs gs' -> forall zs, prodz gs zs = prodz gs' zs.
Proof. induction 1 as [|g g' gs gs' H HF IH]; intros [|z zs]; cbn [prodz]; try reflexivity. rewrite H, IH. reflexivity. Qed.
Lemma correlate_ext L gs gs' j nax x : Forall2 (fun g g' : Z -> K => forall z, g z = g' z) gs gs' -> correlate L gs j nax x = correlate L gs' j nax x.
Proof. intros H. unfold correlate. apply make_ext. intros idx _. apply sumI_ext. intros os _. rewrite (prodz_ext gs gs' H). reflexivity. Qed.

Section Lev.
Variables (lo : list K) (L : nat) (nax : list nat) (x : tensor K).
Hypothesis Hlo : List.length lo = L.
Hypothesis HL : (2 <= L)%nat.
Hypothesis Hg : good_axes (rank x) nax.
Let s := gather nax 0%nat (shp x).
Let sj j := map (len_after L j) s.

Lemma fib_ok_approx j idx : fib_ok nax idx (shp x) -> fib_ok nax idx (shp (approx lo Mzero nax j x)).
Proof.
  intros [H1 H2]. pose proof (approx_rank lo Mzero nax j x) as R. unfold rank in R. split; [congruence|]. intros d Hd Hn. rewrite R in Hd. specialize (H2 d Hd Hn).
  assert (E : forall j, nth d (shp (approx lo Mzero nax j x)) 0%nat = nth d (shp x) 0%nat).
  { clear - Hn Hlo. induction j as [|j IH]; [reflexivity|]. rewrite approx_S. rewrite (shp_dwt L); [rewrite nth_upds_notin by exact Hn; exact IH|apply repeat_length|].
    apply Forall_forall. intros f Hf. rewrite (repeat_spec _ _ _ Hf). exact Hlo. }
  rewrite E. exact H2.
Qed.
(** the last step, given the closed form of the extended approximation *)
Lemma step_closed j (fs : list (list K)) idx ks : fib_ok nax idx (shp x) -> List.length fs = List.length nax -> Forall (fun f => List.length f = L) fs -> valid ks (sj (S j)) ->
  (forall zs, List.length zs = List.length s -> ext_get Mzero (sj j) (fun is => get (approx lo Mzero nax j x) (upds nax is idx)) zs
    = sumI s (fun os => get x (upds nax os idx) * prodz (repeat (iter_lo lo j) (List.length s)) (map2 (pos j) zs os))) ->
  get (dwt_axes fs Mzero nax (approx lo Mzero nax j x)) (upds nax ks idx)
  = sumI s (fun os => get x (upds nax os idx) * prodz (map (fun f => iter_last lo f (S j)) fs) (map2 (pos (S j)) (map Z.of_nat ks) os)).
Proof.
  intros Hi Hl HF Hk IH. assert (Hsz : gather nax 0%nat (shp (approx lo Mzero nax j x)) = sj j) by (apply (approx_sizes lo Mzero L); auto).
  assert (Ls : List.length s = List.length nax) by apply gather_length.
  rewrite (get_dwt_at L); [|rewrite approx_rank; exact Hg|exact Hl|exact HF|apply fib_ok_approx; exact Hi|rewrite Hsz; unfold sj in *; rewrite map_map; erewrite map_ext; [exact Hk|intros n; symmetry; apply len_after_S]].
  rewrite Hsz. unfold dwt_op. pose proof (valid_length _ _ Hk) as Lk. unfold sj in Lk. rewrite map_length in Lk.
  transitivity (sumI (map (@List.length K) fs) (fun js => sumI s (fun os => get x (upds nax os idx) * (taps fs js * prodz (repeat (iter_lo lo j) (List.length fs)) (map2 (pos j) (map2 (fun k i => (2 * Z.of_nat k + 1 - Z.of_nat i)%Z) ks js) os))))).
  - apply sumI_ext. intros js Hjs. pose proof (valid_length _ _ Hjs) as Lj. rewrite map_length in Lj. rewrite IH by (rewrite map2_length; lia). rewrite <- sumI_mul_l. apply sumI_ext. intros os _. replace (List.length fs) with (List.length s) by lia. ring.
  - rewrite sumI_swap. apply sumI_ext. intros os Hos. pose proof (valid_length _ _ Hos) as Lo. rewrite sumI_mul_l. f_equal. apply conv_axes; lia.
Qed.
Lemma ext_closed j idx : fib_ok nax idx (shp x) -> forall zs, List.length zs = List.length s ->
  ext_get Mzero (sj j) (fun is => get (approx lo Mzero nax j x) (upds nax is idx)) zs
  = sumI s (fun os => get x (upds nax os idx) * prodz (repeat (iter_lo lo j) (List.length s)) (map2 (pos j) zs os)).
Proof.
  intros Hi. assert (Ls : List.length s = List.length nax) by apply gather_length. induction j as [|j IH]; intros zs Hz.
  - unfold sj. rewrite map_id. apply ext_zero_sum. exact Hz.
  - unfold ext_get. destruct (ext_idxs Mzero (sj (S j)) zs) as [ks|] eqn:E.
    + destruct (ext_some_valid (sj (S j)) zs ks) as [Hk ->]; [unfold sj; rewrite map_length; exact Hz|exact E|].
      rewrite approx_S. rewrite (step_closed j (repeat lo (List.length nax)) idx ks Hi); [|apply repeat_length|apply Forall_forall; intros f Hf; rewrite (repeat_spec _ _ _ Hf); exact Hlo|exact Hk|exact IH].
      apply sumI_ext. intros os _. f_equal. rewrite PropsFlip.map_repeat, <- Ls. f_equal. unfold iter_last. rewrite Nat.sub_succ, Nat.sub_0_r. reflexivity.
    + symmetry. apply sumI_zero. intros os Hos. rewrite (out_zero lo L (S j) Hlo HL s zs os Hz Hos E). ring.
Qed.
Lemma detail_closed (fs : list (list K)) j : wf x -> List.length fs = List.length nax -> Forall (fun f => List.length f = L) fs ->
  detail lo fs Mzero nax (S j) x = correlate L (map (fun f => iter_last lo f (S j)) fs) (S j) nax x.
Proof.
  intros Hw Hl HF. unfold detail. rewrite Nat.sub_succ, Nat.sub_0_r. pose proof Hg as [Hnd Hin].
  assert (Hsh : shp (dwt_axes fs Mzero nax (approx lo Mzero nax j x)) = upds nax (sj (S j)) (shp x)).
  { rewrite (shp_dwt L) by auto. rewrite (approx_sizes lo Mzero L) by auto. fold s. unfold sj. rewrite map_map.
    assert (U : forall j vals, List.length vals = List.length nax -> upds nax vals (shp (approx lo Mzero nax j x)) = upds nax vals (shp x)).
    { clear - Hlo Hnd. induction j as [|j IH]; intros vals Hv; [reflexivity|]. rewrite approx_S, (shp_dwt L); [|apply repeat_length|apply Forall_forall; intros f Hf; rewrite (repeat_spec _ _ _ Hf); exact Hlo].
      rewrite upds_upds; [apply IH; exact Hv|exact Hnd|]. rewrite map_length, gather_length. exact Hv. }
    rewrite U by (rewrite map_length; apply gather_length). f_equal. apply map_ext. intros n. symmetry. apply len_after_S. }
  unfold correlate. fold s. fold (sj (S j)). apply t_ext; [apply wf_make|apply wf_make|apply (approx_ttag lo Mzero nax j x)|exact Hsh|].
  intros idx Hv. rewrite Hsh in Hv. rewrite get_make by exact Hv.
  assert (Ls : List.length (sj (S j)) = List.length nax) by (unfold sj; rewrite map_length; apply gather_length).
  pose proof (fib_valid_out nax (sj (S j)) (shp x) idx Hg Ls Hv) as Hi.
  assert (Hks : valid (gather nax 0%nat idx) (sj (S j))).
  { rewrite <- (gather_upds nax (sj (S j)) (shp x) 0%nat Hnd Ls) by (intros d Hd; apply Hin; exact Hd). apply valid_gather_sub; [|exact Hv]. intros d Hd. rewrite upds_length. apply Hin. exact Hd. }
  set (ks := gather nax 0%nat idx) in *.
  replace (get (dwt_axes fs Mzero nax (approx lo Mzero nax j x)) idx) with (get (dwt_axes fs Mzero nax (approx lo Mzero nax j x)) (upds nax ks idx)) by (unfold ks; rewrite upds_gather; reflexivity).
  rewrite (step_closed j fs idx ks Hi Hl HF Hks (ext_closed j idx Hi)). apply sumI_ext. intros os _. f_equal. f_equal.
  clear. revert os. induction ks as [|k ks IH]; intros [|o os]; cbn [map map2]; try reflexivity. rewrite IH. reflexivity.
Qed.
Lemma approx_closed j : wf x -> approx lo Mzero nax j x = correlate L (repeat (iter_lo lo j) (List.length nax)) j nax x.
Proof.
  intros Hw. destruct j as [|j].
  - pose proof Hg as [Hnd Hin]. unfold correlate. fold s. assert (Hs0 : upds nax (map (len_after L 0) s) (shp x) = shp x) by (rewrite map_id; apply upds_gather). rewrite Hs0.
    apply t_ext; [exact Hw|apply wf_make|reflexivity|reflexivity|]. intros idx Hv. cbn [approx Nat.iter nat_rect] in *. rewrite get_make by exact Hv.
    assert (Hi : fib_ok nax idx (shp x)) by (apply (fib_valid_out nax s (shp x) idx Hg (gather_length _ _ _)); unfold s; rewrite upds_gather; exact Hv).
    assert (Hks : valid (gather nax 0%nat idx) s) by (apply valid_gather_sub; [intros d Hd; apply Hin; exact Hd|exact Hv]).
    pose proof (ext_zero_sum s (fun is => get x (upds nax is idx)) lo (map Z.of_nat (gather nax 0%nat idx)) ltac:(rewrite map_length, (valid_length _ _ Hks); reflexivity)) as E.
    assert (V : forall s ks, valid ks s -> ext_idxs Mzero s (map Z.of_nat ks) = Some ks).
    { clear. induction 1 as [|k n ks s Hk H IH]; [reflexivity|]. cbn [map ext_idxs ext_idx]. rewrite IH. replace ((0 <=? Z.of_nat k) && (Z.of_nat k <? Z.of_nat n))%Z with true by lia. rewrite Nat2Z.id. reflexivity. }
    unfold ext_get in E. rewrite V in E by exact Hks. cbv beta in E. rewrite upds_gather in E. etransitivity; [exact E|]. apply sumI_ext. intros os _. f_equal. unfold s. rewrite gather_length. f_equal.
    clear. generalize (gather nax 0%nat idx). intros ks. revert os. induction ks as [|k ks IH]; intros [|o os]; cbn [map map2]; try reflexivity. rewrite IH. reflexivity.
  - transitivity (detail lo (repeat lo (List.length nax)) Mzero nax (S j) x); [unfold detail; rewrite Nat.sub_succ, Nat.sub_0_r; reflexivity|].
    rewrite detail_closed by (first [exact Hw|apply repeat_length|apply Forall_forall; intros f Hf; rewrite (repeat_spec _ _ _ Hf); exact Hlo]).
    rewrite PropsFlip.map_repeat. apply correlate_ext. clear. induction (List.length nax) as [|n IH]; cbn [repeat]; constructor; [intros z; rewrite iter_S; reflexivity|exact IH].
Qed.
End Lev.

(** ** the code: the whole result in closed form *)
(** the last filters of level j on each axis; keys as in C14, C16, C18 *)
Definition lasts lo (j : nat) (fs : list (list K)) : list (Z -> K) := map (fun f => iter_last lo f j) fs.
Definition closed_level (T : transform) lo hi (L : nat) (nax : list nat) x (j : nat) : pyval K :=
  let D fs := correlate L (lasts lo j fs) j nax x in
  match T with
  | Twavedec _ => PT (D [hi])
  | Twavedec2 _ => PTup [D [hi; lo]; D [lo; hi]; D [hi; hi]]
  | Twavedec3 _ => PDict (map (fun k => (k, D (key_filters lo hi k))) keys3)
  | Tfswavedec2 _ => PDict (map (fun k => (k, D (key_filters lo hi k))) (detail_keys 2))
  | Tfswavedec3 _ => PDict (map (fun k => (k, D (key_filters lo hi k))) (detail_keys 3))
  end.
Theorem C86_iterated_filters T x w L level c : wf x ->
  List.length (dec_lo w) = L -> List.length (dec_hi w) = L -> (2 <= L)%nat -> Nat.even L = true ->
  (is3 T = true -> (2 <= List.length (pc_items c))%nat \/ exists z, level = Some z /\ (0 < z)%Z) -> (isfs T = true -> level = None -> ~ In 0%nat (shp x)) ->
  analyse T x w (Some "zero"%string) level = Ok c ->
  exists axes, hint_axes (thint T) (tdim T) = Some axes /\
    let nax := map (norm_axis (rank x)) axes in
    let J := num_levels level L (gather nax 0%nat (shp x)) in
    pc_items c = PT (correlate L (repeat (iter_lo (dec_lo w) J) (tdim T)) J nax x)
                 :: map (closed_level T (dec_lo w) (dec_hi w) L nax x) (rev (seq 1 J)).
Proof.
  intros Hw H1 H2 HL He H3 Hfs H.
  destruct (analyse_inv T x w Mzero L level c Hw H1 H2 HL He H3 Hfs H) as (Hd & axes & Hh & Hl & Hax & HJ). cbv zeta in HJ. destruct HJ as (H3' & Hfs' & Hlev & Hc).
  exists axes. split; [exact Hh|]. cbv zeta. set (nax := map (norm_axis (rank x)) axes) in *. set (J := num_levels _ _ _) in *.
  assert (Hg : good_axes (rank x) nax) by (apply good_axes_ok; exact Hax).
  assert (Hn : List.length nax = tdim T) by (unfold nax; rewrite map_length; exact Hl).
  subst c. unfold tspec. cbn [pc_items]. f_equal; [f_equal; rewrite <- Hn; apply (approx_closed (dec_lo w) L nax x H1 HL Hg J Hw)|].
  apply map_ext_in. intros j Hj. apply in_rev, in_seq in Hj. destruct j as [|j]; [lia|].
  assert (HD : forall fs, List.length fs = List.length nax -> Forall (fun f => List.length f = L) fs -> detail (dec_lo w) fs Mzero nax (S j) x = correlate L (lasts (dec_lo w) (S j) fs) (S j) nax x).
  { intros fs F1 F2. apply (detail_closed (dec_lo w) L nax x H1 HL Hg); auto. }
  assert (HK : forall keys, Forall (fun k => List.length (list_ascii_of_string k) = List.length nax) keys ->
     map (fun k => (k, detail (dec_lo w) (key_filters (dec_lo w) (dec_hi w) k) Mzero nax (S j) x)) keys
     = map (fun k => (k, correlate L (lasts (dec_lo w) (S j) (key_filters (dec_lo w) (dec_hi w) k)) (S j) nax x)) keys).
  { intros keys HF. apply map_ext_in. intros k Hk. rewrite Forall_forall in HF. rewrite HD; [reflexivity|unfold key_filters; rewrite map_length; apply HF; exact Hk|apply PropsFlip.key_filters_len; assumption]. }
  destruct T; cbn [tdetails tdim closed_level] in *; unfold details2, details3, detailsN; rewrite ?Hn in *.
  - rewrite HD by (first [reflexivity|repeat constructor; assumption]). reflexivity.
  - rewrite !HD by (first [reflexivity|repeat constructor; assumption]). reflexivity.
  - rewrite HK by (repeat constructor). reflexivity.
  - rewrite HK by (repeat constructor). reflexivity.
  - rewrite HK by (repeat constructor). reflexivity.
Qed.
End Iter.
