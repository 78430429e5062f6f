(** swt: one level and the whole transform. *)
From Coq Require Import List Arith ZArith Lia Bool String.
From Coq Require Import ZifyNat ZifyBool.
From Verif Require Import Base Sums Tensor TensorFacts Util Perm Plumb Accept Spec Conv1 PadFacts CoreFacts Analysis PRKernel Synthesis Filters Wave1 Wave1Inv Rec1 SpecSwt Swt SwtFacts.
Import ListNotations.
Ltac Zify.zify_post_hook ::= Z.div_mod_to_equations.

Section SD.
Context {K : CRing}.
Add Ring Kring : (cr_th K).
Implicit Types t u x y : tensor K.
Implicit Types f lo hi : list K.
Implicit Types w : wavelet K.

(** what the code computes along one axis, whatever the pad widths *)
Definition gop f (d : nat) (s : list nat) (X : list nat -> K) (ks : list nat) : K :=
  sumf (List.length f) (fun i => kmul (nth i f kzero)
    (X [nth (hd 0 ks + d * (List.length f - 1 - i)) (circ_list (hd 0 s) (d * (List.length f / 2 - 1)) (d * (List.length f / 2))) 0])).
Definition gaxis f (d a : nat) x : tensor K := along_axes (fun s => s) (gop f d) [a] x.

Lemma nth_circ_lt n p q o : 0 < n -> nth o (circ_list n p q) 0 < n.
Proof.
  intros Hn. destruct (circ_list_ok n p q Hn) as (H1 & H2 & _). destruct (Nat.lt_ge_cases o (List.length (circ_list n p q))).
  - rewrite Forall_forall in H2. apply H2. apply nth_In. exact H.
  - rewrite nth_overflow by exact H. exact Hn.
Qed.
Lemma gop_ext f d n : 0 < n -> op_ext [n] (gop f d).
Proof.
  intros Hn X X' k Hk HX. unfold gop. apply sumf_ext. intros i Hi. f_equal. apply HX. cbn [hd]. constructor; [|constructor]. apply nth_circ_lt. exact Hn.
Qed.

Lemma swt_step u b n filt lo hi L d : wf u -> shp u = [b; n] -> 0 < n -> 0 < d -> 2 <= L -> Nat.even L = true ->
  List.length lo = L -> List.length hi = L -> filt_ok filt 1 L (rev lo) (rev hi) ->
  exists p res, circular_pad (unsqueeze u 1) (d * (L / 2 - 1)) (d * (L / 2)) = Ok p /\ conv_nd 1 d p filt = Ok res /\
    split1 res 1 = [unsqueeze (core (fun s => s) (gop lo d) u) 1; unsqueeze (core (fun s => s) (gop hi d) u) 1].
Proof.
  intros Hw Hs Hn Hd HL He Hlo Hhi [Hf1 Hf2]. apply Nat.even_spec in He as [h Hh].
  assert (Hh2 : L / 2 = h) by (rewrite Hh, Nat.mul_comm; apply Nat.div_mul; lia).
  assert (Hsu : shp (unsqueeze u 1) = [b; 1; n]) by (cbn; unfold insertn; rewrite Hs; reflexivity).
  rewrite (circular_pad_ok _ b 1 n _ _ (wf_unsqueeze u 1 Hw) Hsu Hn).
  set (l := circ_list n (d * (L / 2 - 1)) (d * (L / 2))).
  destruct (circ_list_ok n (d * (L / 2 - 1)) (d * (L / 2)) Hn) as (Hll & Hlt & _). fold l in Hll, Hlt.
  assert (Hlen : List.length l = n + d * (L - 1)) by (rewrite Hll, Hh2; nia).
  set (p := sel2 (unsqueeze u 1) l).
  assert (Hsp : shp p = [b; 1; n + d * (L - 1)]) by (unfold p, sel2; rewrite shp_make, Hsu, Hlen; reflexivity).
  assert (Hco : conv_out (n + d * (L - 1)) L 1 d = n) by (unfold conv_out; rewrite Nat.div_1_r; lia).
  assert (Hconv : conv_nd 1 d p filt = Ok (tmake (ttag p) [b; 2; n] (fun idx => match idx with
      | ib :: co :: os => sumf 1 (fun ci => sumI [L] (fun js =>
          kmul (get p (ib :: ci :: map2 (fun o j => o * 1 + j * d) os js)) (get filt (co :: ci :: js))))
      | _ => kzero end))).
  { unfold conv_nd. rewrite Hsp, Hf1. cbn [repeat List.length Nat.eqb andb map2 forallb Nat.pow Nat.mul Nat.add]. rewrite Hco.
    replace (Nat.ltb 0 L) with true by (symmetry; apply Nat.ltb_lt; lia).
    replace (Nat.ltb (d * (L - 1)) (n + d * (L - 1))) with true by (symmetry; apply Nat.ltb_lt; lia). reflexivity. }
  eexists. eexists. split; [reflexivity|]. split; [exact Hconv|].
  set (res := tmake (ttag p) _ _).
  change (split1 res 1) with [narrow res 1 0 1; narrow res 1 1 1].
  assert (G : forall c, c < 2 -> narrow res 1 c 1 = unsqueeze (core (fun s => s) (gop (bsel lo hi c) d) u) 1).
  { intros c Hc. assert (Hsc : shp (core (fun s => s) (gop (bsel lo hi c) d) u) = [b; n]) by (rewrite shp_core, Hs; reflexivity).
    apply t_ext.
    - apply wf_make.
    - apply wf_unsqueeze, wf_core.
    - reflexivity.
    - cbn [narrow shp tmake]. unfold unsqueeze, insertn. cbn [shp]. rewrite Hsc. reflexivity.
    - intros idx Hv. change (shp (narrow res 1 c 1)) with [b; 1; n] in Hv.
      destruct idx as [|ib [|z [|k [|]]]]; try (apply valid_length in Hv; discriminate).
      pose proof Hv as Hv'.
      apply valid_cons_inv in Hv as [Hib Hv]. apply valid_cons_inv in Hv as [Hz Hv]. apply valid_cons_inv in Hv as [Hk _].
      assert (z = 0) as -> by lia. rewrite get_narrow by exact Hv'. cbn [nth updn Nat.add].
      unfold res. rewrite get_make by valids. cbn [sumf sumI].
      change ([ib; 0; k]) with ([ib] ++ 0 :: [k]).
      rewrite (get_unsqueeze _ 1 [ib] [k]); [|reflexivity|unfold rank; rewrite Hsc; cbn; lia].
      cbn [app]. rewrite get_core; rewrite Hs; cbn [hd tl]; [|exact Hib|valids].
      unfold gop. cbn [hd]. assert (Hbl : List.length (bsel lo hi c) = L) by (destruct c; assumption). rewrite Hbl. fold l.
      rewrite sumf_rev. match goal with |- kadd kzero ?a = ?b => transitivity a; [ring|] end.
      apply sumf_ext. intros i Hi. rewrite Hf2; [|exact Hc|valids]. cbn [chanD bsels map taps].
      replace (nth (L - 1 - i) (bsel (rev lo) (rev hi) c) kzero) with (nth i (bsel lo hi c) kzero).
      2:{ destruct c; cbn [bsel]; rewrite rev_nth by lia; f_equal; lia. }
      cbn [map2]. unfold p, sel2. rewrite get_make.
      2:{ rewrite Hsu. cbn [nth]. constructor; [exact Hib|]. constructor; [lia|]. constructor; [|constructor]. rewrite Hlen. nia. }
      cbn [nth]. replace (k * 1 + (L - 1 - i) * d) with (k + d * (L - 1 - i)) by lia.
      change ([ib; 0; nth (k + d * (L - 1 - i)) l 0]) with ([ib] ++ 0 :: [nth (k + d * (L - 1 - i)) l 0]).
      rewrite get_unsqueeze; [|reflexivity|unfold rank; rewrite Hs; cbn; lia]. cbn [app]. ring. }
  rewrite !G by lia. reflexivity.
Qed.

Lemma gaxis_facts f d a x : a < rank x ->
  wf (gaxis f d a x) /\ shp (gaxis f d a x) = shp x /\ ttag (gaxis f d a x) = ttag x /\ rank (gaxis f d a x) = rank x.
Proof.
  intros Ha. unfold gaxis. repeat split.
  - apply wf_make.
  - rewrite shp_along. apply upds_gather.
  - apply rank_along.
Qed.
Lemma gaxis_pre f d a x : wf x -> a < rank x -> 0 < nth a (shp x) 0 ->
  pre_t [a] (gaxis f d a x) = core (fun s => s) (gop f d) (pre_t [a] x).
Proof.
  intros Hw Ha Hn. apply pre_along; auto using good_axes1. cbn [gather map]. apply gop_ext. exact Hn.
Qed.

Fixpoint gapprox lo (a lvl j : nat) x : tensor K :=
  match j with O => x | S j' => gapprox lo a (S lvl) j' (gaxis lo (2 ^ lvl) a x) end.
Lemma gapprox_facts lo a j : forall lvl x, wf x -> a < rank x ->
  wf (gapprox lo a lvl j x) /\ shp (gapprox lo a lvl j x) = shp x /\ ttag (gapprox lo a lvl j x) = ttag x /\ rank (gapprox lo a lvl j x) = rank x.
Proof.
  induction j as [|j IH]; intros lvl x Hw Ha; [auto|]. cbn [gapprox].
  destruct (gaxis_facts lo (2 ^ lvl) a x Ha) as (A & B & C & D). destruct (IH (S lvl) (gaxis lo (2 ^ lvl) a x) A) as (E & F & G & H); [lia|].
  repeat split; congruence.
Qed.
Lemma gapprox_S lo a j : forall lvl x, gapprox lo a lvl (S j) x = gaxis lo (2 ^ (lvl + j)) a (gapprox lo a lvl j x).
Proof.
  induction j as [|j IH]; intros lvl x; [cbn [gapprox]; rewrite Nat.add_0_r; reflexivity|].
  change (gapprox lo a lvl (S (S j)) x) with (gapprox lo a (S lvl) (S j) (gaxis lo (2 ^ lvl) a x)). rewrite IH. f_equal. f_equal. lia.
Qed.

Lemma swt_loop_ok J : forall lvl filt L lo hi a x acc, wf x -> a < rank x -> 0 < nth a (shp x) 0 ->
  List.length lo = L -> List.length hi = L -> 2 <= L -> Nat.even L = true -> filt_ok filt 1 L (rev lo) (rev hi) ->
  swt_loop J lvl filt L (unsqueeze (pre_t [a] x) 1) acc
  = Ok (unsqueeze (pre_t [a] (gapprox lo a lvl J x)) 1,
        acc ++ map (fun j => pre_t [a] (gaxis hi (2 ^ (lvl + j)) a (gapprox lo a lvl j x))) (seq 0 J)).
Proof.
  induction J as [|J IH]; intros lvl filt L lo hi a x acc Hw Ha Hn H1 H2 HL He Hf.
  - cbn. rewrite app_nil_r. reflexivity.
  - cbn [swt_loop].
    destruct (swt_step (pre_t [a] x) (prodl (fsz [a] (shp x))) (nth a (shp x) 0) filt lo hi L (2 ^ lvl)) as (p & res & E1 & E2 & E3); auto.
    { apply pre_t_wf. apply good_axes1. exact Ha. }
    { pose proof (Nat.pow_nonzero 2 lvl). lia. }
    rewrite E1. cbn [rbind]. rewrite E2. cbn [rbind]. rewrite E3.
    rewrite <- !gaxis_pre by assumption. rewrite squeeze_unsq_pre.
    destruct (gaxis_facts lo (2 ^ lvl) a x Ha) as (A & B & C & D).
    rewrite (IH (S lvl) filt L lo hi a (gaxis lo (2 ^ lvl) a x)); auto; try congruence; try lia.
    cbn [gapprox]. do 2 f_equal. rewrite <- app_assoc. f_equal. cbn [app seq map]. rewrite Nat.add_0_r. f_equal.
    rewrite <- (seq_shift J 0), map_map. apply map_ext. intros j. do 2 f_equal. f_equal. lia.
Qed.

(** the list returned by swt *)
Definition gspec lo hi (a J : nat) x : list (tensor K) :=
  gapprox lo a 0 J x :: map (fun j => gaxis hi (2 ^ j) a (gapprox lo a 0 j x)) (rev (seq 0 J)).
Lemma gspec_facts lo hi a J x : wf x -> a < rank x -> forall y : tensor K, In y (gspec lo hi a J x) ->
  wf y /\ shp y = shp x /\ ttag y = ttag x /\ rank y = rank x.
Proof.
  intros Hw Ha y [<-|Hy]; [apply gapprox_facts; assumption|].
  apply in_map_iff in Hy as (j & <- & _). destruct (gapprox_facts lo a j 0 x Hw Ha) as (A & B & C & D).
  destruct (gaxis_facts hi (2 ^ j) a (gapprox lo a 0 j x)) as (E & F & G & H); [lia|]. repeat split; congruence.
Qed.

Definition swt_lev (level : option Z) (n J : nat) : Prop :=
  match level with Some z => J = Z.to_nat z | None => J = swt_max_level n end.

Theorem swt_gen x w L J level h axis : wf x -> is_dtype_supported (tdtype x) = true ->
  hint_axes h 1 = Some [axis] -> axis_ok (rank x) axis -> List.length (dec_lo w) = L -> List.length (dec_hi w) = L -> 2 <= L -> Nat.even L = true ->
  let a := norm_axis (rank x) axis in 0 < nth a (shp x) 0 -> swt_lev level (nth a (shp x) 0) J ->
  swt x w level h = Ok (mkPC true (map PT (gspec (dec_lo w) (dec_hi w) a J x))).
Proof.
  intros Hw Hd Hh Hax H1 H2 HL He a Hn Hlev.
  assert (Har : a < rank x) by (apply norm_axis_lt; exact Hax). pose proof (good_axes1 _ _ Har) as Hg.
  unfold swt. rewrite (preprocess_tensor_ok x 1 h [axis] true); auto using axis_axes_ok.
  cbn [rbind map]. fold a. cbn [get_filter_tensors].
  change (ttag (unsqueeze (pre_t [a] x) 1)) with (ttag x).
  destruct (filt_nd 1 (dec_lo w) (dec_hi w) true (ttag x) L ltac:(lia) H1 H2) as (filt & Hf & Hfo).
  cbn [construct_nd_filt construct_1d_filt] in Hf. unfold construct_1d_filt in Hf. cbn [get_filter_tensors]. unfold get_filter_tensors. cbn iota. rewrite Hf. cbn [rbind].
  change (dim_last (unsqueeze (pre_t [a] x) 1) 1) with (nth a (shp x) 0).
  replace (dim_last (create_tensor (dec_lo w) true (ttag x)) 1) with L by (symmetry; exact H1).
  replace (range_level _) with J.
  2:{ unfold range_level. destruct level as [z|]; cbn [swt_lev] in Hlev; [exact Hlev|lia]. }
  rewrite (swt_loop_ok J 0 filt L (dec_lo w) (dec_hi w) a x []); auto. cbn [rbind app].
  rewrite rev_app_distr. cbn [rev app]. rewrite squeeze_unsq_pre, <- map_rev.
  set (pt := fun j => pre_t [a] (gaxis (dec_hi w) (2 ^ (0 + j)) a (gapprox (dec_lo w) a 0 j x))).
  replace (pre_t [a] (gapprox (dec_lo w) a 0 J x) :: map pt (rev (seq 0 J)))
    with (map (pre_t [a]) (gspec (dec_lo w) (dec_hi w) a J x)) by (unfold gspec; cbn [map]; rewrite map_map; reflexivity).
  pose proof (gspec_facts (dec_lo w) (dec_hi w) a J x Hw Har) as Hspec.
  pose proof (fsz_length [a] (shp x) Hg) as HF. cbn [List.length] in HF. fold (rank x) in HF.
  rewrite (postprocess_coeffs_ok _ 1 h [axis] (rank x) (fsz [a] (shp x)) (gather [a] 0 (shp x))); auto using axis_axes_ok.
  - rewrite pc_map_list. do 3 f_equal. rewrite map_map. cbn [map]. fold a.
    rewrite <- (map_id (gspec _ _ _ _ _)) at 2. apply map_ext_in. intros y Hy.
    destruct (Hspec y Hy) as (Y1 & Y2 & Y3 & Y4). rewrite <- Y2. apply post_pre; [exact Y1|]. rewrite Y4. exact Hg.
  - apply pc_regular_list. discriminate.
  - intros t Ht. rewrite pc_tensors_list in Ht. apply in_map_iff in Ht as (y & <- & Hy).
    destruct (Hspec y Hy) as (Y1 & Y2 & Y3 & Y4). split; [apply pre_t_wf; rewrite Y4; exact Hg|].
    exists [nth a (shp y) 0]. cbn. rewrite Y2. auto.
Qed.

(** * The formula *)
Lemma along_ext osz op op' nax x : (forall X k, op (gather nax 0 (shp x)) X k = op' (gather nax 0 (shp x)) X k) ->
  along_axes osz op nax x = along_axes osz op' nax x.
Proof. intros H. unfold along_axes. apply make_ext. intros idx _. apply H. Qed.
Lemma along_ext_v osz op op' nax x : good_axes (rank x) nax -> List.length (osz (gather nax 0 (shp x))) = List.length nax ->
  (forall X k, valid k (osz (gather nax 0 (shp x))) -> op (gather nax 0 (shp x)) X k = op' (gather nax 0 (shp x)) X k) ->
  along_axes osz op nax x = along_axes osz op' nax x.
Proof.
  intros Hg Hl H. unfold along_axes. apply make_ext. intros idx Hv. apply H.
  rewrite <- (gather_upds nax (osz (gather nax 0 (shp x))) (shp x) 0) at 1; auto; [|apply Hg|intros d Hd; apply Hg in Hd; exact Hd].
  apply valid_gather_sub; [|exact Hv]. intros d Hd. rewrite upds_length. apply Hg in Hd. exact Hd.
Qed.

Lemma gop_circ f L d n X k : List.length f = L -> 2 <= L -> Nat.even L = true -> 0 < n -> 0 < d -> circ_ok n (d * (L / 2 - 1)) (d * (L / 2)) -> k < n ->
  gop f d [n] X [k] = circ_conv f (Z.of_nat (L / 2)) (Z.of_nat d) n (fun i => X [i]) k.
Proof.
  intros <- HL He Hn Hd Hok Hk. unfold gop, circ_conv. cbn [hd]. apply sumf_ext. intros i Hi. f_equal. f_equal. f_equal.
  apply Nat.even_spec in He as [h Hh]. assert (Hh2 : List.length f / 2 = h) by lia. rewrite Hh2 in *.
  destruct (circ_list_ok n (d * (h - 1)) (d * h) Hn) as (_ & _ & Hc). rewrite (Hc Hok). rewrite pwin_nth by nia. f_equal. nia.
Qed.
Lemma gaxis_circ f L d a x : wf x -> a < rank x -> List.length f = L -> 2 <= L -> Nat.even L = true -> 0 < nth a (shp x) 0 -> 0 < d ->
  circ_ok (nth a (shp x) 0) (d * (L / 2 - 1)) (d * (L / 2)) ->
  gaxis f d a x = circ_axis f (Z.of_nat (L / 2)) (Z.of_nat d) a x.
Proof.
  intros Hw Ha Hf HL He Hn Hd Hok. apply along_ext_v; auto using good_axes1. cbn [gather map]. intros X k Hk.
  destruct k as [|k [|]]; try (apply valid_length in Hk; discriminate). apply valid_cons_inv in Hk as [Hk _]. cbn [hd]. apply gop_circ; assumption.
Qed.

(** pad widths of levels 1 .. J *)
Definition circ_levels (L J n : nat) : Prop := forall j, j < J -> circ_ok n (2 ^ j * (L / 2 - 1)) (2 ^ j * (L / 2)).
Lemma pow2z j : Z.of_nat (2 ^ j) = (2 ^ Z.of_nat j)%Z.
Proof. rewrite Nat2Z.inj_pow. reflexivity. Qed.

Lemma gapprox_circ lo L a x j : wf x -> a < rank x -> List.length lo = L -> 2 <= L -> Nat.even L = true -> 0 < nth a (shp x) 0 ->
  circ_levels L j (nth a (shp x) 0) -> gapprox lo a 0 j x = swt_approx lo a j x.
Proof.
  intros Hw Ha Hf HL He Hn. induction j as [|j IH]; intros Hok; [reflexivity|].
  rewrite gapprox_S. cbn [swt_approx]. rewrite <- IH by (intros i Hi; apply Hok; lia).
  destruct (gapprox_facts lo a j 0 x Hw Ha) as (A & B & C & D).
  rewrite (gaxis_circ lo L); auto; try lia.
  - unfold swt_level. rewrite Hf, pow2z. f_equal. f_equal. lia.
  - rewrite B. exact Hn.
  - rewrite B. apply Hok. lia.
Qed.
Lemma gspec_circ lo hi L a J x : wf x -> a < rank x -> List.length lo = L -> List.length hi = L -> 2 <= L -> Nat.even L = true -> 0 < nth a (shp x) 0 ->
  circ_levels L J (nth a (shp x) 0) -> gspec lo hi a J x = swt_spec lo hi a J x.
Proof.
  intros Hw Ha Hlo Hhi HL He Hn Hok. unfold gspec, swt_spec. rewrite (gapprox_circ lo L) by assumption. f_equal.
  rewrite <- seq_shift, <- map_rev, map_map. apply map_ext_in. intros j Hj. apply in_rev in Hj. apply in_seq in Hj.
  unfold swt_detail. replace (S j - 1) with j by lia. rewrite <- (gapprox_circ lo L) by (try assumption; intros i Hi; apply Hok; lia).
  destruct (gapprox_facts lo a j 0 x Hw Ha) as (A & B & C & D).
  rewrite (gaxis_circ hi L); auto; try lia.
  - unfold swt_level. rewrite Hhi, pow2z. f_equal. f_equal. lia.
  - rewrite B. exact Hn.
  - rewrite B. apply Hok. lia.
Qed.
Lemma circ_levels_dvd L J n : 0 < n -> 2 <= L -> n mod 2 ^ (J - 1) = 0 -> circ_levels L J n.
Proof.
  intros Hn HL Hm j Hj. apply circ_ok_dilated; try lia; pose proof (Nat.pow_nonzero 2 j ltac:(lia)); pose proof (Nat.pow_nonzero 2 (J - 1) ltac:(lia)); try lia.
  assert (E : 2 ^ (J - 1) = 2 ^ j * 2 ^ (J - 1 - j)) by (rewrite <- Nat.pow_add_r; f_equal; lia).
  assert (Hk : exists k, n = 2 ^ (J - 1) * k) by (exists (n / 2 ^ (J - 1)); apply Nat.div_exact; lia).
  destruct Hk as [k ->]. rewrite E. rewrite <- Nat.mul_assoc, Nat.mul_comm. apply Nat.mod_mul. lia.
Qed.
Lemma circ_levels_two J n : 0 < n -> circ_levels 2 J n.
Proof. intros Hn j Hj. replace (2 ^ j * (2 / 2 - 1)) with 0 by (change (2 / 2) with 1; lia). apply circ_ok_zero. exact Hn. Qed.
End SD.
