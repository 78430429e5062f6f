(** C75: energy of the stationary transform of an orthogonal filter bank. *)
From Coq Require Import List Arith ZArith Lia Bool String.
From Verif Require Import Base Sums Tensor TensorFacts Util Perm Plumb Accept Spec Conv1 PadFacts CoreFacts PRKernel Filters Props1 Swt SpecSwt SwtFacts SwtDec SwtRec PropsSwt SpecMat PropsMat1 EnergyN Polyphase.
Import ListNotations.
Local Open Scope K_scope.

(** 2^k in the ring *)
Definition two_pow {K : CRing} (k : nat) : K := Nat.iter k (fun z => z + z) 1.

Section SE.
Context {K : CRing}.
Add Ring Kring : (cr_th K).
Implicit Types (x : tensor K).

(** both channels, filtered back with the reversed filters, add up to twice the signal *)
Lemma circ_two dlo dhi rlo rhi L (d : Z) n (X : nat -> K) o : pr_bank dlo dhi rlo rhi L -> (0 < n)%nat -> (o < n)%nat ->
  let c := Z.of_nat (L / 2) in
  circ_conv rlo (c - 1) d n (circ_conv dlo c d n X) o + circ_conv rhi (c - 1) d n (circ_conv dhi c d n X) o = X o + X o.
Proof.
  intros Hpr Hn Ho c. pose proof (pr_len _ _ _ _ _ Hpr) as (H1 & H2 & H3 & H4). pose proof (pr_two _ _ _ _ _ Hpr) as HL.
  rewrite (circ_conv_conv dlo rlo c (c - 1) d n X o L), (circ_conv_conv dhi rhi c (c - 1) d n X o L) by assumption. rewrite <- sumf_add.
  rewrite (sumf_single (2 * L) (L - 1)); [|lia|].
  - transitivity ((convc dlo rlo (L - 1) + convc dhi rhi (L - 1)) * X (cyc n (Z.of_nat o + d * (c + (c - 1) - Z.of_nat (L - 1))))); [ring|].
    rewrite (pr_distortion _ _ _ _ _ Hpr), Nat.eqb_refl.
    replace (Z.of_nat o + d * (c + (c - 1) - Z.of_nat (L - 1)))%Z with (Z.of_nat o).
    + rewrite cyc_id by exact Ho. ring.
    + pose proof (pr_even _ _ _ _ _ Hpr) as He. apply Nat.even_spec in He as [h He]. unfold c. replace (L / 2)%nat with h by lia. nia.
  - intros t Ht Hne. transitivity ((convc dlo rlo t + convc dhi rhi t) * X (cyc n (Z.of_nat o + d * (c + (c - 1) - Z.of_nat t)))); [ring|].
    rewrite (pr_distortion _ _ _ _ _ Hpr). apply Nat.eqb_neq in Hne. rewrite Hne. ring.
Qed.
Lemma sum_cyc n (z : Z) (G : nat -> K) : (0 < n)%nat -> sumf n (fun k => G (cyc n (Z.of_nat k + z))) = sumf n G.
Proof.
  intros Hn. symmetry. apply (sumf_perm n (fun k => cyc n (Z.of_nat k + z)) (fun k => cyc n (Z.of_nat k - z))); intros p Hp; (split; [apply cyc_lt, Hn|]).
  - replace (Z.of_nat (cyc n (Z.of_nat p + z)) - z)%Z with (Z.of_nat (cyc n (Z.of_nat p + z)) + - z)%Z by lia. rewrite cyc_cyc by exact Hn. replace (Z.of_nat p + z + - z)%Z with (Z.of_nat p) by lia. apply cyc_id, Hp.
  - replace (Z.of_nat p - z)%Z with (Z.of_nat p + - z)%Z by lia. rewrite cyc_cyc by exact Hn. replace (Z.of_nat p + - z + z)%Z with (Z.of_nat p) by lia. apply cyc_id, Hp.
Qed.
(** the adjoint of a circular filter is the reversed filter *)
Lemma circ_adjoint f (c d : Z) n (X Y : nat -> K) : (0 < n)%nat ->
  sumf n (fun k => Y k * circ_conv f c d n X k) = sumf n (fun k => circ_conv (rev f) (Z.of_nat (List.length f) - 1 - c) d n Y k * X k).
Proof.
  intros Hn. unfold circ_conv. rewrite rev_length. set (L := List.length f).
  transitivity (sumf L (fun i => sumf n (fun k => nth i f 0 * (Y k * X (cyc n (Z.of_nat k + d * (c - Z.of_nat i))))))).
  { rewrite sumf_swap. apply sumf_ext. intros k _. rewrite <- sumf_mul_l. apply sumf_ext. intros i _. ring. }
  symmetry. transitivity (sumf L (fun i => sumf n (fun k => nth i (rev f) 0 * (Y (cyc n (Z.of_nat k + d * (Z.of_nat L - 1 - c - Z.of_nat i))) * X k)))).
  { rewrite sumf_swap. apply sumf_ext. intros k _. rewrite <- sumf_mul_r. apply sumf_ext. intros i _. ring. }
  rewrite sumf_rev. apply sumf_ext. intros i Hi. rewrite rev_nth by (fold L; lia). fold L. replace (L - S (L - 1 - i))%nat with i by lia. rewrite !sumf_mul_l. f_equal.
  rewrite <- (sum_cyc n (d * (c - Z.of_nat i)) (fun k => Y (cyc n (Z.of_nat k + d * (Z.of_nat L - 1 - c - Z.of_nat (L - 1 - i)))) * X k)) by exact Hn.
  apply sumf_ext. intros k Hk. rewrite cyc_cyc by exact Hn. f_equal. f_equal. rewrite <- (cyc_id n k) at 2 by exact Hk. f_equal. replace (Z.of_nat (L - 1 - i)) with (Z.of_nat L - 1 - Z.of_nat i)%Z by lia. ring.
Qed.
Lemma circ_energy dlo dhi L (d : Z) n (X : nat -> K) : pr_bank dlo dhi (rev dlo) (rev dhi) L -> (0 < n)%nat ->
  let c := Z.of_nat (L / 2) in
  sumf n (fun k => circ_conv dlo c d n X k * circ_conv dlo c d n X k) + sumf n (fun k => circ_conv dhi c d n X k * circ_conv dhi c d n X k) = sumf n (fun k => X k * X k) + sumf n (fun k => X k * X k).
Proof.
  intros Hpr Hn c. pose proof (pr_len _ _ _ _ _ Hpr) as (H1 & H2 & _). rewrite !circ_adjoint by exact Hn. rewrite H1, H2. pose proof (pr_even _ _ _ _ _ Hpr) as He. apply Nat.even_spec in He as [h He].
  replace (Z.of_nat L - 1 - c)%Z with (c - 1)%Z by (unfold c; replace (L / 2)%nat with h by lia; lia). rewrite <- !sumf_add. apply sumf_ext. intros k Hk.
  transitivity ((circ_conv (rev dlo) (c - 1) d n (circ_conv dlo c d n X) k + circ_conv (rev dhi) (c - 1) d n (circ_conv dhi c d n X) k) * X k); [ring|].
  unfold c. rewrite circ_two by assumption. ring.
Qed.
Lemma energy_axis1 x a : (a < rank x)%nat -> energy x = sumI (updn a 1%nat (shp x)) (fun idx => sumf (nth a (shp x) 0%nat) (fun i => get x (updn a i idx) * get x (updn a i idx))).
Proof. intros Ha. unfold energy. rewrite <- (updn_nth1 a (shp x)) at 1. apply sumI_axis, Ha. Qed.
Lemma energy_circ f c d a x : (a < rank x)%nat -> (0 < nth a (shp x) 0)%nat ->
  energy (circ_axis f c d a x) = sumI (updn a 1%nat (shp x)) (fun idx => sumf (nth a (shp x) 0%nat) (fun i =>
    circ_conv f c d (nth a (shp x) 0%nat) (fun j => get x (updn a j idx)) i * circ_conv f c d (nth a (shp x) 0%nat) (fun j => get x (updn a j idx)) i)).
Proof.
  intros Ha Hn. destruct (circ_axis_facts f c d a x Ha) as (A & B & C & D). rewrite (energy_axis1 _ a) by (rewrite D; exact Ha). rewrite B. apply sumI_ext. intros idx Hv. apply sumf_ext. intros i Hi.
  assert (Hv' : valid (updn a i idx) (shp x)).
  { rewrite <- (updn_nth1 a (shp x)). replace (updn a (nth a (shp x) 0%nat) (shp x)) with (updn a (nth a (shp x) 0%nat) (updn a 1%nat (shp x))) by apply updn_updn1. apply valid_updn; [exact Hv|exact Hi]. }
  pose proof (valid_length _ _ Hv) as Hl. rewrite updn_length in Hl. fold (rank x) in Hl.
  rewrite get_circ_axis by auto. rewrite nth_updn1 by lia.
  rewrite (circ_conv_ext f c d (nth a (shp x) 0%nat) (fun j => get x (updn a j (updn a i idx))) (fun j => get x (updn a j idx))) by (try exact Hn; intros j _; rewrite updn_updn1; reflexivity). reflexivity.
Qed.
Lemma swt_level_energy dlo dhi L j a x : pr_bank dlo dhi (rev dlo) (rev dhi) L -> (a < rank x)%nat -> (0 < nth a (shp x) 0)%nat ->
  energy (swt_level dlo j a x) + energy (swt_level dhi j a x) = energy x + energy x.
Proof.
  intros Hpr Ha Hn. pose proof (pr_len _ _ _ _ _ Hpr) as (H1 & H2 & _). unfold swt_level. rewrite H1, H2, !energy_circ by assumption. rewrite (energy_axis1 x a Ha). rewrite <- !sumI_add. apply sumI_ext. intros idx _.
  apply (circ_energy dlo dhi L _ _ _ Hpr Hn).
Qed.
Lemma two_pow_S k : two_pow (K := K) (S k) = two_pow k + two_pow k.
Proof. reflexivity. Qed.
Lemma swt_energy dlo dhi L a J x : pr_bank dlo dhi (rev dlo) (rev dhi) L -> wf x -> (a < rank x)%nat -> (0 < nth a (shp x) 0)%nat ->
  two_pow J * energy x = energy (swt_approx dlo a J x) + sumf J (fun i => two_pow i * energy (swt_detail dlo dhi a (J - i) x)).
Proof.
  intros Hpr Hw Ha Hn. induction J as [|J IH]; [cbn; ring|].
  rewrite sumf_S_first. replace (S J - 0)%nat with (S J) by lia. unfold swt_detail at 1. replace (S J - 1)%nat with J by lia. cbn [swt_approx].
  destruct (swt_approx_facts dlo a J x Hw Ha) as (A1 & A2 & A3 & A4).
  pose proof (swt_level_energy dlo dhi L (S J) a (swt_approx dlo a J x) Hpr) as Q. rewrite A2 in Q. unfold rank in Q. rewrite A2 in Q. specialize (Q Ha Hn).
  transitivity (two_pow J * energy x + two_pow J * energy x); [rewrite two_pow_S; ring|]. rewrite IH.
  rewrite (sumf_ext J (fun i => two_pow (S i) * energy (swt_detail dlo dhi a (S J - S i) x)) (fun i => two_pow i * energy (swt_detail dlo dhi a (J - i) x) + two_pow i * energy (swt_detail dlo dhi a (J - i) x)))
    by (intros i _; change (S J - S i)%nat with (J - i)%nat; rewrite two_pow_S; ring).
  rewrite sumf_add. set (S0 := sumf J _). transitivity ((energy (swt_approx dlo a J x) + energy (swt_approx dlo a J x)) + (S0 + S0)); [ring|]. rewrite <- Q. change (two_pow (K := K) 0) with (kone (c := K)). ring.
Qed.

(** ** C75 *)
Theorem C75_swt_energy x w L level h axis c : cancel2 K -> swt_input x h axis -> orthogonal_bank L (dec_lo w) (dec_hi w) (rec_lo w) (rec_hi w) ->
  let a := norm_axis (rank x) axis in let n := nth a (shp x) 0%nat in let J := levels_of level n in
  (L = 2%nat \/ (n mod 2 ^ (J - 1) = 0)%nat) -> swt x w level h = Ok c ->
  exists A D, c = mkPC true (map PT (A :: D)) /\ List.length D = J /\
    two_pow J * energy x = energy A + sumf J (fun i => two_pow i * energy (nth i D x)).
Proof.
  intros Hc Hin B a n J Hdiv E. assert (Hb : even_bank w L).
  { split; [apply (ob_len_lo _ _ _ _ _ B)|]. split; [apply (ob_len_hi _ _ _ _ _ B)|]. split; [apply (ob_two _ _ _ _ _ B)|]. apply Nat.even_spec. exists (L / 2)%nat. pose proof (ob_even _ _ _ _ _ B). pose proof (Nat.div_mod L 2 ltac:(lia)). lia. }
  rewrite (C23_swt_formula x w L level h axis Hin Hb Hdiv) in E. apply ok_inj in E. subst c. fold a n J. unfold swt_spec.
  eexists _, _. split; [reflexivity|]. split; [rewrite map_length, rev_length, seq_length; reflexivity|].
  destruct Hin as (Hw & _ & _ & Hax & Hn). destruct Hb as (H1 & H2 & HL & He).
  rewrite (swt_energy (dec_lo w) (dec_hi w) L a J x); [|apply pr_iff_orthogonal; auto|exact Hw|apply norm_axis_lt, Hax|exact Hn].
  - f_equal. apply sumf_ext. intros i Hi. f_equal. f_equal. rewrite (nth_indep _ x (swt_detail (dec_lo w) (dec_hi w) a 0 x)) by (rewrite map_length, rev_length, seq_length; exact Hi).
    rewrite (map_nth (fun j => swt_detail (dec_lo w) (dec_hi w) a j x) _ 0%nat). f_equal. rewrite rev_nth, seq_length, seq_nth by (rewrite ?seq_length; lia). lia.
  - pose proof (ob_rec_lo _ _ _ _ _ B) as R1. pose proof (ob_rec_hi _ _ _ _ _ B) as R2. rewrite R1, R2 in B. exact B.
Qed.
End SE.
