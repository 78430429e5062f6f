(** C87: every coefficient of the stationary transform is a circular correlation with one iterated filter; iswt
    commutes with circular shifts. *)
From Coq Require Import List Arith ZArith Lia Bool Ascii String Ring.
From Coq Require Import ZifyNat ZifyBool.
From Verif Require Import Base Sums Tensor TensorFacts Util Perm Plumb Accept Spec Conv1 PadFacts CoreFacts Filters Wave1 Lin Examples Props1 Swt SpecSwt SwtFacts SwtDec SwtRec PropsSwt Conv2 Conv3 Spec2 WaveN Unified UnifiedRec PropsConst PropsLocal PropsIter.
Import ListNotations.

Section SwtIter.
Context {K : CRing}.
Add Ring Kring : (cr_th K).
Local Open Scope K_scope.
Implicit Types (x : tensor K) (w : wavelet K) (lo hi f : list K).

(** number of taps of the filter of level j *)
Definition taps_at (L j : nat) : nat := (2 ^ j - 1) * (L - 1) + 1.
(** coefficient k of level j: sum over the taps m of g[m] x[(k + (2^j - 1) L/2 - m) mod n] *)
Definition circ_iter (L : nat) (g : Z -> K) (j a : nat) x : tensor K :=
  let n := nth a (shp x) 0%nat in
  tmake (ttag x) (shp x) (fun idx => sumf (taps_at L j) (fun m => g (Z.of_nat m) *
    get x (updn a (Z.to_nat ((Z.of_nat (nth a idx 0%nat) + (2 ^ Z.of_nat j - 1) * Z.of_nat (L / 2) - Z.of_nat m) mod Z.of_nat n)) idx))).
Definition swt_closed lo hi (L a J : nat) x : list (tensor K) :=
  circ_iter L (iter_lo lo J) J a x :: map (fun j => circ_iter L (iter_last lo hi j) j a x) (rev (seq 1 J)).

Lemma shift_sum N N' d (g : Z -> K) (Y : nat -> K) : (N + d <= N')%nat -> (forall z, (z < 0 \/ Z.of_nat N <= z)%Z -> g z = 0) ->
  sumf N' (fun M => g (Z.of_nat M - Z.of_nat d)%Z * Y M) = sumf N (fun m => g (Z.of_nat m) * Y (m + d)%nat).
Proof.
  intros H Hg. replace N' with (d + N + (N' - N - d))%nat by lia. rewrite !sumf_app.
  rewrite (sumf_zero d) by (intros i Hi; rewrite Hg by lia; ring). rewrite (sumf_zero (N' - N - d)) by (intros i Hi; rewrite Hg by lia; ring).
  rewrite (sumf_ext N (fun m => g (Z.of_nat m) * Y (m + d)%nat) (fun i => g (Z.of_nat (d + i) - Z.of_nat d)%Z * Y (d + i)%nat)); [ring|].
  intros i _. f_equal; [|f_equal; lia]. f_equal. lia.
Qed.
Lemma pow2_pos j : (1 <= 2 ^ j)%nat. Proof. pose proof (Nat.pow_nonzero 2 j ltac:(lia)). lia. Qed.
Lemma step_closed lo f L j a x : List.length lo = L -> List.length f = L -> (2 <= L)%nat -> wf x -> (a < rank x)%nat -> (0 < nth a (shp x) 0)%nat ->
  swt_level f (S j) a (circ_iter L (iter_lo lo j) j a x) = circ_iter L (iter_last lo f (S j)) (S j) a x.
Proof.
  intros Hlo Hf HL Hw Ha Hn. set (y := circ_iter L (iter_lo lo j) j a x). unfold swt_level. rewrite Hf.
  assert (Hy : shp y = shp x) by reflexivity. assert (Hr : rank y = rank x) by reflexivity.
  destruct (circ_axis_facts f (Z.of_nat (L / 2)) (2 ^ (Z.of_nat (S j) - 1)) a y ltac:(lia)) as (A & B & C & D).
  apply t_ext; [exact A|apply wf_make|exact C|exact B|]. intros idx Hv. rewrite B, Hy in Hv.
  rewrite get_circ_axis by (rewrite ?Hy; auto). unfold circ_iter at 1. rewrite get_make by exact Hv. rewrite Hy. set (n := nth a (shp x) 0%nat) in *.
  pose proof (valid_length _ _ Hv) as Hl. fold (rank x) in Hl. unfold circ_conv. rewrite Hf.
  set (k := Z.of_nat (nth a idx 0%nat)) in *. set (c := Z.of_nat (L / 2)). replace (Z.of_nat (S j) - 1)%Z with (Z.of_nat j) by lia.
  set (P := (2 ^ Z.of_nat j)%Z). assert (HP : P = Z.of_nat (2 ^ j)) by (unfold P; rewrite Nat2Z.inj_pow; reflexivity). pose proof (pow2_pos j) as Hp.
  set (X := fun z => get x (updn a (cyc n z) idx)).
  transitivity (sumf L (fun i => sumf (taps_at L j) (fun m => nth i f 0 * (iter_lo lo j (Z.of_nat m) * X (k + (2 * P - 1) * c - Z.of_nat (m + 2 ^ j * i))%Z)))).
  - apply sumf_ext. intros i Hi. rewrite sumf_mul_l. f_equal. unfold y, circ_iter.
    assert (Hc : (cyc n (k + P * (c - Z.of_nat i)) < n)%nat) by (apply cyc_lt; exact Hn).
    rewrite get_make by (apply valid_updn1; [exact Hv|exact Hc]). apply sumf_ext. intros m _. f_equal. unfold X. rewrite updn_updn1, nth_updn1 by lia. f_equal. f_equal. fold n P c.
    unfold cyc. f_equal. rewrite Z2Nat.id by (apply Z.mod_pos_bound; lia). rewrite <- Zminus_mod_idemp_l, Zplus_mod_idemp_l, Zminus_mod_idemp_l. f_equal. rewrite HP. nia.
  - transitivity (sumf L (fun i => sumf (taps_at L (S j)) (fun M => nth i f 0 * iter_lo lo j (Z.of_nat M - P * Z.of_nat i)%Z * X (k + (2 * P - 1) * c - Z.of_nat M)%Z))).
    + apply sumf_ext. intros i Hi. rewrite sumf_mul_l. rewrite <- (shift_sum (taps_at L j) (taps_at L (S j)) (2 ^ j * i) (iter_lo lo j) (fun M => X (k + (2 * P - 1) * c - Z.of_nat M)%Z)).
      * rewrite <- sumf_mul_l. apply sumf_ext. intros M _. replace (Z.of_nat M - Z.of_nat (2 ^ j * i))%Z with (Z.of_nat M - P * Z.of_nat i)%Z by (rewrite HP; lia). ring.
      * unfold taps_at. cbn [Nat.pow]. nia.
      * intros z Hz. apply (iter_support lo L j); [exact Hlo|lia|]. destruct Hz as [Hz|Hz]; [left; exact Hz|right]. unfold taps_at in Hz. fold P. rewrite HP. nia.
    + rewrite sumf_swap. apply sumf_ext. intros M _. rewrite sumf_mul_r. f_equal.
      * unfold iter_last. rewrite Hf, Nat.sub_succ, Nat.sub_0_r. reflexivity.
      * unfold X, cyc. f_equal. f_equal. f_equal. f_equal. rewrite Nat2Z.inj_succ, Z.pow_succ_r by lia. fold P n. reflexivity.
Qed.
Lemma circ_iter0 lo L a x : wf x -> (a < rank x)%nat -> circ_iter L (iter_lo lo 0) 0 a x = x.
Proof.
  intros Hw Ha. apply t_ext; [apply wf_make|exact Hw|reflexivity|reflexivity|]. intros idx Hv. change (valid idx (shp x)) in Hv.
  unfold circ_iter. rewrite get_make by exact Hv. change (taps_at L 0) with 1%nat. cbn [sumf].
  pose proof (valid_nth _ _ a Hv ltac:(exact Ha)) as Hi.
  replace (Z.to_nat _) with (nth a idx 0%nat).
  - rewrite updn_nth1. cbn [iter_lo]. change (Z.eqb (Z.of_nat 0) 0) with true. cbv iota. ring.
  - change (2 ^ Z.of_nat 0 - 1)%Z with 0%Z. rewrite Z.mul_0_l. change (Z.of_nat 0) with 0%Z. rewrite Z.mod_small by lia. lia.
Qed.
Lemma approx_iter lo L a x : List.length lo = L -> (2 <= L)%nat -> wf x -> (a < rank x)%nat -> (0 < nth a (shp x) 0)%nat ->
  forall j, swt_approx lo a j x = circ_iter L (iter_lo lo j) j a x.
Proof.
  intros Hlo HL Hw Ha Hn. induction j as [|j IH]; cbn [swt_approx]; [symmetry; apply circ_iter0; assumption|].
  rewrite IH. rewrite step_closed by assumption. unfold iter_last. rewrite Nat.sub_succ, Nat.sub_0_r. reflexivity.
Qed.

(** C87(a): any even filter length, level and batch; 2^(levels-1) divides n (or two taps) *)
Theorem C87_iterated_filters x w L level h axis : swt_input x h axis -> even_bank w L ->
  let a := norm_axis (rank x) axis in let n := nth a (shp x) 0%nat in let J := levels_of level n in
  (L = 2 \/ n mod 2 ^ (J - 1) = 0)%nat ->
  swt x w level h = Ok (mkPC true (map PT (swt_closed (dec_lo w) (dec_hi w) L a J x))).
Proof.
  intros Hi Hb a n J Hdiv. rewrite (C23_swt_formula x w L level h axis Hi Hb) by exact Hdiv. fold a n J. f_equal. f_equal. f_equal.
  destruct Hi as (Hw & Hd & Hh & Hax & Hn). destruct Hb as (H1 & H2 & HL & He). pose proof (norm_axis_lt _ _ Hax) as Ha. fold a in Ha, Hn.
  unfold swt_spec, swt_closed. f_equal; [apply approx_iter; assumption|]. apply map_ext_in. intros j Hj. apply in_rev, in_seq in Hj. destruct j as [|j]; [lia|].
  unfold swt_detail. rewrite Nat.sub_succ, Nat.sub_0_r. rewrite (approx_iter (dec_lo w) L) by assumption. apply step_closed; assumption.
Qed.

(** ** iswt commutes with circular shifts *)
Lemma tlin_shift p q a s (x y : tensor K) : wf x -> wf y -> shp y = shp x -> (a < rank x)%nat -> (0 < nth a (shp x) 0)%nat ->
  tlin p q (tshift a s x) (tshift a s y) = tshift a s (tlin p q x y).
Proof.
  intros Hx Hy Hs Ha Hn. assert (Hay : (a < rank y)%nat) by (unfold rank in *; rewrite Hs; exact Ha).
  destruct (tshift_facts a s x Ha) as (A & B & C & D). destruct (tshift_facts a s y Hay) as (A' & B' & C' & D').
  destruct (tshift_facts a s (tlin p q x y) Ha) as (A2 & B2 & C2 & D2).
  apply t_ext; [apply wf_tlin; congruence|exact A2|etransitivity; [exact C|symmetry; exact C2]|etransitivity; [exact B|symmetry; exact B2]|].
  intros idx Hv. change (valid idx (shp (tshift a s x))) in Hv. rewrite B in Hv.
  rewrite get_tlin by congruence. rewrite !get_tshift by (rewrite ?Hs; assumption). rewrite Hs. change (shp (tlin p q x y)) with (shp x). rewrite get_tlin by assumption. reflexivity.
Qed.
Lemma iswt_spec_shift half (rlo rhi : list K) a s : forall his (lo : tensor K), wf lo -> (a < rank lo)%nat -> (0 < nth a (shp lo) 0)%nat ->
  Forall (fun t => wf t /\ shp t = shp lo /\ ttag t = ttag lo) his ->
  iswt_spec half rlo rhi a (tshift a s lo) (map (tshift a s) his) = tshift a s (iswt_spec half rlo rhi a lo his).
Proof.
  induction his as [|hi his IH]; intros lo Hw Ha Hn HF; [reflexivity|]. cbn [map iswt_spec]. rewrite map_length.
  pose proof (Forall_inv HF) as (Hw' & Hs' & Ht'). apply Forall_inv_tail in HF. set (d := (2 ^ Z.of_nat (List.length his))%Z).
  assert (Ha' : (a < rank hi)%nat) by (unfold rank in *; rewrite Hs'; exact Ha).
  destruct (iswt_level_facts half rlo rhi d a lo hi Ha Hs') as (A & B & C & D).
  rewrite <- IH by (first [exact A|rewrite ?D, ?B; assumption|eapply Forall_impl; [|exact HF]; cbv beta; intros t (T1 & T2 & T3); repeat split; congruence]).
  f_equal. unfold iswt_level. rewrite !circ_axis_shift by (rewrite ?Hs'; assumption).
  destruct (circ_axis_facts rlo (Z.of_nat (List.length rlo / 2) - 1) d a lo Ha) as (E & F & G & H).
  destruct (circ_axis_facts rhi (Z.of_nat (List.length rhi / 2) - 1) d a hi Ha') as (E' & F' & G' & H').
  apply tlin_shift; try assumption; try congruence.
Qed.
Theorem C87_iswt_shift half (lo : tensor K) his w L h axis s y : swt_input lo h axis ->
  Forall (fun t => wf t /\ shp t = shp lo /\ ttag t = ttag lo) his ->
  List.length (rec_lo w) = L -> List.length (rec_hi w) = L -> (2 <= L)%nat -> Nat.even L = true ->
  let a := norm_axis (rank lo) axis in
  (L = 2 \/ nth a (shp lo) 0 mod 2 ^ (List.length his - 1) = 0)%nat ->
  iswt half (map PT (lo :: his)) w h = Ok y ->
  iswt half (map PT (map (tshift a s) (lo :: his))) w h = Ok (tshift a s y).
Proof.
  intros Hi HF H1 H2 HL He a Hdiv H. rewrite (C24_iswt_formula half lo his w L h axis Hi HF H1 H2 HL He Hdiv) in H. apply ok_inj in H. subst y. fold a.
  destruct Hi as (Hw & Hd & Hh & Hax & Hn). pose proof (norm_axis_lt _ _ Hax) as Ha. fold a in Ha, Hn. destruct (tshift_facts a s lo Ha) as (A & B & C & D).
  cbn [map]. change (PT (tshift a s lo) :: map PT (map (tshift a s) his)) with (map (@PT K) (tshift a s lo :: map (tshift a s) his)).
  rewrite (C24_iswt_formula half (tshift a s lo) (map (tshift a s) his) w L h axis).
  - f_equal. rewrite D. fold a. apply iswt_spec_shift; assumption.
  - unfold swt_input, tdtype. rewrite B, C, D. fold a. auto.
  - apply Forall_map. eapply Forall_impl; [|exact HF]. cbv beta. intros t (T1 & T2 & T3).
    destruct (tshift_facts a s t) as (A' & B' & C' & D'); [unfold rank in *; rewrite T2; exact Ha|]. repeat split; congruence.
  - exact H1.
  - exact H2.
  - exact HL.
  - exact He.
  - rewrite B, D, map_length. fold a. exact Hdiv.
Qed.

Lemma window_sum n T l (F : nat -> K) (g : Z -> K) : (T <= S l)%nat -> (l < n)%nat -> (forall z, (z < 0 \/ Z.of_nat T <= z)%Z -> g z = 0) ->
  sumf n (fun o => F o * (g (Z.of_nat l - Z.of_nat o)%Z * 1)) = sumf T (fun m => g (Z.of_nat m) * F (l - m)%nat).
Proof.
  intros HT Hl Hg. rewrite (sumf_extend (S l) n) by (first [lia|intros o Ho; rewrite Hg by lia; ring]).
  rewrite sumf_rev. rewrite (sumf_extend T (S l)) by (first [lia|intros o Ho; rewrite Hg by lia; ring]).
  apply sumf_ext. intros m Hm. replace (S l - 1 - m)%nat with (l - m)%nat by lia. replace (Z.of_nat l - Z.of_nat (l - m))%Z with (Z.of_nat m) by lia. ring.
Qed.
Lemma mod_win n l m A : (m <= l)%nat -> (l < n)%nat ->
  Z.to_nat ((Z.of_nat (Z.to_nat ((Z.of_nat l - A) mod Z.of_nat n)) + A - Z.of_nat m) mod Z.of_nat n) = (l - m)%nat.
Proof.
  intros Hm Hl. rewrite Z2Nat.id by (apply Z.mod_pos_bound; lia). rewrite <- Zminus_mod_idemp_l, Zplus_mod_idemp_l, Zminus_mod_idemp_l.
  replace (Z.of_nat l - A + A - Z.of_nat m)%Z with (Z.of_nat (l - m)) by lia. rewrite Z.mod_small by lia. lia.
Qed.
(** ** the zero-padded transform is the stationary one, sampled every 2^j positions, where no window crosses a border *)
Theorem C87_decimated x w L level level' h axis c s : swt_input x h axis -> even_bank w L ->
  let a := norm_axis (rank x) axis in let n := nth a (shp x) 0%nat in let J' := levels_of level' n in
  (L = 2 \/ n mod 2 ^ (J' - 1) = 0)%nat ->
  wavedec x w (Some "zero"%string) level axis = Ok c -> swt x w level' h = Ok s ->
  let J := num_levels level L [n] in
  forall j, (1 <= j <= J)%nat -> (j <= J')%nat ->
  exists d t : tensor K, nth_error (pc_items c) (S (J - j)) = Some (PT d) /\ nth_error (pc_items s) (S (J' - j)) = Some (PT t) /\
    forall idx, valid idx (shp d) -> let last := (2 ^ Z.of_nat j * (Z.of_nat (nth a idx 0%nat) + 1) - 1)%Z in
      (Z.of_nat (taps_at L j) - 1 <= last < Z.of_nat n)%Z ->
      get d idx = get t (updn a (Z.to_nat ((last - (2 ^ Z.of_nat j - 1) * Z.of_nat (L / 2)) mod Z.of_nat n)) idx).
Proof.
  intros Hi Hb a n J' Hdiv Hc Hs J j Hj Hj'. rewrite (C87_iterated_filters x w L level' h axis Hi Hb Hdiv) in Hs. fold a n J' in Hs. apply ok_inj in Hs. subst s. cbn [pc_items].
  destruct Hi as (Hw & Hd & Hh & Hax & Hn). destruct Hb as (H1 & H2 & HL & He). pose proof (norm_axis_lt _ _ Hax) as Ha. fold a in Ha, Hn.
  destruct (C86_iterated_filters (Twavedec axis) x w L level c Hw H1 H2 HL He ltac:(discriminate) ltac:(discriminate) Hc) as (axes & Ha' & HR).
  cbn [thint tdim] in Ha'. cbn in Ha'. injection Ha' as <-. cbn [map] in HR. fold a in HR. cbn [gather map] in HR. fold n J in HR. rewrite HR.
  exists (correlate L [iter_last (dec_lo w) (dec_hi w) j] j [a] x), (circ_iter L (iter_last (dec_lo w) (dec_hi w) j) j a x).
  assert (NR : forall N, (1 <= j <= N)%nat -> nth_error (rev (seq 1 N)) (N - j) = Some j).
  { intros N HN. rewrite (nth_error_nth' _ 0%nat) by (rewrite rev_length, seq_length; lia). f_equal. rewrite rev_nth by (rewrite seq_length; lia). rewrite seq_length, seq_nth by lia. lia. }
  split; [|split].
  - cbn [nth_error]. rewrite nth_error_map, NR by lia. reflexivity.
  - unfold swt_closed. cbn [map nth_error]. rewrite !nth_error_map, NR by lia. reflexivity.
  - intros idx Hv Hwin. set (last := (2 ^ Z.of_nat j * (Z.of_nat (nth a idx 0%nat) + 1) - 1)%Z) in *. unfold correlate in Hv |- *. cbn [gather map] in *. change (shp (tmake ?t ?s ?f)) with s in Hv. fold n in Hv |- *. rewrite get_make by exact Hv.
    set (g := iter_last (dec_lo w) (dec_hi w) j). set (P := (2 ^ Z.of_nat j)%Z) in *. set (T := taps_at L j) in *. set (k := nth a idx 0%nat) in *.
    assert (HT : (1 <= T)%nat) by (unfold T, taps_at; rewrite Nat.add_comm; apply Nat.le_add_r).
    assert (Hg : forall z, (z < 0 \/ Z.of_nat T <= z)%Z -> g z = 0).
    { intros z Hz. unfold g, iter_last. apply sumf_zero. intros m Hm. rewrite H2 in Hm. rewrite (iter_support (dec_lo w) L (j - 1)); [ring|exact H1|lia|]. unfold T, taps_at in Hz. pose proof (pow2_pos (j - 1)) as Pj.
      assert (E2 : (2 ^ j = 2 * 2 ^ (j - 1))%nat) by (replace j with (S (j - 1)) at 1 by lia; reflexivity). rewrite E2 in Hz.
      assert (E3 : (2 ^ Z.of_nat (j - 1))%Z = Z.of_nat (2 ^ (j - 1))) by (rewrite Nat2Z.inj_pow; reflexivity). rewrite E3. destruct Hz as [Hz|Hz]; [left; nia|right; nia]. }
    assert (Hl0 : exists l, last = Z.of_nat l /\ (T <= S l)%nat /\ (l < n)%nat).
    { exists (Z.to_nat last). clearbody last T n P. clear - Hwin HT. lia. }
    destruct Hl0 as (l & Hll & HlT & Hln). rewrite Hll in *.
    set (p := Z.to_nat ((Z.of_nat l - (P - 1) * Z.of_nat (L / 2)) mod Z.of_nat n)). assert (Hp : (p < n)%nat) by (apply (cyc_lt n); exact Hn).
    assert (Hv' : valid (updn a p idx) (shp x)).
    { pose proof (valid_upds_l [a] [len_after L j n] idx (shp x)) as V. specialize (V ltac:(repeat constructor; auto) ltac:(intros d [<-|[]]; exact Ha) Hv eq_refl [p]). cbn [upds] in V. apply V. cbn [gather map]. fold n. constructor; [exact Hp|constructor]. }
    assert (Hlen : (a < List.length idx)%nat) by (apply valid_length in Hv'; rewrite updn_length in Hv'; rewrite Hv'; exact Ha).
    unfold circ_iter. rewrite get_make by exact Hv'. fold n T. rewrite nth_updn1 by exact Hlen. cbn [sumI map2 prodz upds]. fold k.
    transitivity (sumf n (fun o => get x (updn a o idx) * (g (Z.of_nat l - Z.of_nat o)%Z * 1))).
    { apply sumf_ext. intros o _. fold P. unfold last in Hll. rewrite Hll. reflexivity. }
    rewrite (window_sum n T l (fun o => get x (updn a o idx)) g HlT Hln Hg). apply sumf_ext. intros m Hm. rewrite updn_updn1. fold P. unfold p. rewrite mod_win; [reflexivity| |exact Hln].
    clear - Hm HlT. lia.
Qed.
End SwtIter.
