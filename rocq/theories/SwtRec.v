(** iswt: one level, the whole synthesis, perfect reconstruction, shift equivariance. *)
From Coq Require Import List Arith ZArith Lia Bool String.
From Coq Require Import ZifyNat ZifyBool.
From Verif Require Import Base Sums Tensor TensorFacts Util Perm Plumb Accept Spec Conv1 PadFacts CoreFacts Analysis PRKernel Synthesis Filters Wave1 Wave1Inv Rec1 Lin SpecSwt Swt SwtFacts SwtDec.
Import ListNotations.
Ltac Zify.zify_post_hook ::= Z.div_mod_to_equations.

Section SR.
Context {K : CRing}.
Add Ring Kring : (cr_th K).
Implicit Types t u x y : tensor K.
Implicit Types f g : list K.
Implicit Types w : wavelet K.

Definition cop f (c d : Z) (s : list nat) (X : list nat -> K) (ks : list nat) : K :=
  circ_conv f c d (hd 0 s) (fun i => X [i]) (hd 0 ks).
Lemma circ_axis_cop f c d a x : circ_axis f c d a x = along_axes (fun s => s) (cop f c d) [a] x.
Proof. reflexivity. Qed.
Lemma cop_ext f c d n : 0 < n -> op_ext [n] (cop f c d).
Proof.
  intros Hn X X' k Hk HX. unfold cop, circ_conv. apply sumf_ext. intros i Hi. f_equal. apply HX. cbn [hd]. constructor; [|constructor]. apply cyc_lt. exact Hn.
Qed.
Lemma circ_axis_facts f c d a x : a < rank x ->
  wf (circ_axis f c d a x) /\ shp (circ_axis f c d a x) = shp x /\ ttag (circ_axis f c d a x) = ttag x /\ rank (circ_axis f c d a x) = rank x.
Proof.
  intros Ha. rewrite circ_axis_cop. repeat split.
  - apply wf_make.
  - rewrite shp_along. apply upds_gather.
  - apply rank_along.
Qed.
Lemma circ_axis_pre f c d a x : wf x -> a < rank x -> 0 < nth a (shp x) 0 ->
  pre_t [a] (circ_axis f c d a x) = core (fun s => s) (cop f c d) (pre_t [a] x).
Proof.
  intros Hw Ha Hn. rewrite circ_axis_cop. apply pre_along; auto using good_axes1. cbn [gather map]. apply cop_ext. exact Hn.
Qed.


Lemma map2_same {A B C D} (h : B -> C -> D) (p : A -> B) (q : A -> C) l : map2 h (map p l) (map q l) = map (fun k => h (p k) (q k)) l.
Proof. induction l as [|a l IH]; cbn; congruence. Qed.
Lemma pre_tlin (p q : K) nax x y : wf x -> wf y -> shp y = shp x -> pre_t nax (tlin p q x y) = tlin p q (pre_t nax x) (pre_t nax y).
Proof.
  intros Hx Hy Hs. assert (Hry : rank y = rank x) by (unfold rank; rewrite Hs; reflexivity).
  unfold pre_t, permute_nat, tmake. rewrite Hry, Hs. change (rank (tlin p q x y)) with (rank x). change (shp (tlin p q x y)) with (shp x).
  change (ttag (tlin p q x y)) with (ttag x). unfold tlin at 2. cbn [shp ttag dat]. f_equal.
  rewrite map2_same. apply map_ext. intros k. apply get_tlin; assumption.
Qed.

Lemma iswt_step half (y0 y1 : tensor K) b n filt rlo rhi L d : wf y0 -> wf y1 -> shp y0 = [b; n] -> shp y1 = [b; n] -> 0 < n -> 0 < d -> 2 <= L -> Nat.even L = true ->
  List.length rlo = L -> List.length rhi = L -> filt_ok filt 1 L rlo rhi -> circ_ok n (d * (L / 2)) (d * (L / 2 - 1)) ->
  exists s p ct, stack 1 [y0; y1] = Ok s /\ circular_pad s (d * (L / 2)) (d * (L / 2 - 1)) = Ok p /\
    conv_transpose_nd 1 d (d * (L / 2) + d * (L / 2 - 1)) 2 p filt = Ok ct /\
    mean2 half ct = tlin half half (core (fun s => s) (cop rlo (Z.of_nat (L / 2) - 1) (Z.of_nat d)) y0)
                                   (core (fun s => s) (cop rhi (Z.of_nat (L / 2) - 1) (Z.of_nat d)) y1).
Proof.
  intros Hw0 Hw1 Hs0 Hs1 Hn Hd HL He Hlo Hhi [Hf1 Hf2] Hok. apply Nat.even_spec in He as [h Hh].
  assert (Hh2 : L / 2 = h) by lia.
  rewrite (stack_ok 1 y0 [y1]) by (constructor; [congruence|constructor]).
  set (s := tmake _ _ _). exists s.
  assert (Hss : shp s = [b; 2; n]) by (unfold s; rewrite shp_make, Hs0; reflexivity).
  assert (Hws : wf s) by apply wf_make.
  rewrite (circular_pad_ok s b 2 n _ _ Hws Hss Hn).
  destruct (circ_list_ok n (d * (L / 2)) (d * (L / 2 - 1)) Hn) as (Hll & Hlt & Hcl). specialize (Hcl Hok).
  set (l := circ_list n (d * (L / 2)) (d * (L / 2 - 1))) in *.
  assert (Hlen : List.length l = n + d * (L - 1)) by (rewrite Hll, Hh2; nia).
  set (p := sel2 s l). exists p.
  assert (Hsp : shp p = [b; 2; n + d * (L - 1)]) by (unfold p, sel2; rewrite shp_make, Hss, Hlen; reflexivity).
  replace (d * (L / 2) + d * (L / 2 - 1)) with (d * (L - 1)) by (rewrite Hh2; nia).
  assert (Hco : convt_out (n + d * (L - 1)) L 1 d (d * (L - 1)) = n) by (unfold convt_out; generalize (d * (L - 1)); clear - Hn; intros q; lia).
  eexists. split; [reflexivity|]. split; [reflexivity|]. split.
  { unfold conv_transpose_nd. rewrite Hsp, Hf1. cbn [repeat List.length Nat.eqb andb map2 forallb Nat.pow Nat.mul Nat.add].
    change (Nat.ltb 0 2) with true. change (2 mod 2) with 0. cbn [Nat.eqb andb].
    replace (Nat.ltb 0 (n + d * (L - 1))) with true by (symmetry; apply Nat.ltb_lt; generalize (d * (L - 1)); clear - Hn; intros q; lia).
    replace (Nat.ltb 0 L) with true by (symmetry; apply Nat.ltb_lt; clear - HL; lia).
    match goal with |- context [Nat.ltb ?u ?v] => replace (Nat.ltb u v) with true by (symmetry; apply Nat.ltb_lt; generalize (d * (L - 1)); clear - Hn; intros q; lia) end.
    cbn [andb]. reflexivity. }
  set (ct := tmake (ttag p) _ _).
  assert (Hsct : shp ct = [b; 2; n]) by (unfold ct; rewrite shp_make; cbn [map2]; rewrite Hco; reflexivity).
  assert (G : forall c ib o, c < 2 -> ib < b -> o < n ->
     get ct [ib; c; o] = circ_conv (bsel rlo rhi c) (Z.of_nat (L / 2) - 1) (Z.of_nat d) n (fun i => get (nth c [y0; y1] y0) [ib; i]) o).
  { intros c ib o Hc Hib Ho. unfold ct. rewrite get_make.
    2:{ cbn [map2]. rewrite Hco. valids. }
    change (2 / 2) with 1. cbn [sumf]. rewrite Nat.div_1_r, Nat.mod_1_r. replace (c * 1 + 0) with c by lia.
    match goal with |- kadd kzero ?a = ?b => transitivity a; [ring|] end.
    rewrite sumI_swap. unfold circ_conv. assert (Hbl : List.length (bsel rlo rhi c) = L) by (destruct c; assumption). rewrite Hbl.
    cbn [repeat sumI]. apply sumf_ext. intros j Hj.
    set (i0 := o + d * (L - 1 - j)). assert (Hi0 : i0 + j * d = o + d * (L - 1)) by (unfold i0; nia).
    assert (Hi0l : i0 < n + d * (L - 1)) by (unfold i0; nia).
    rewrite (sumf_single _ i0); [|exact Hi0l|].
    - cbn [map2 map]. unfold eqidx. cbn [list_eqb]. replace (i0 * 1 + j * d) with (o + d * (L - 1)) by lia. rewrite Nat.eqb_refl. cbn [andb].
      rewrite Hf2; [|exact Hc|valids]. cbn [chanD bsels map taps].
      unfold p, sel2. rewrite get_make.
      2:{ rewrite Hss, Hlen. cbn [nth]. valids. }
      cbn [nth]. rewrite Hcl, pwin_nth by (rewrite <- Hll, Hlen; exact Hi0l).
      unfold s. rewrite get_make.
      2:{ rewrite Hs0. cbn. pose proof (cyc_lt n (Z.of_nat i0 - Z.of_nat (d * (L / 2))) Hn). valids. }
      cbn [nth removen firstn skipn app].
      replace (cyc n (Z.of_nat o + Z.of_nat d * (Z.of_nat (L / 2) - 1 - Z.of_nat j))) with (cyc n (Z.of_nat i0 - Z.of_nat (d * (L / 2)))).
      2:{ f_equal. rewrite Hh2. nia. }
      ring.
    - intros i Hi Hne. cbn [map2 map]. unfold eqidx. cbn [list_eqb].
      replace (Nat.eqb (i * 1 + j * d) (o + d * (L - 1))) with false; [reflexivity|]. symmetry. apply Nat.eqb_neq. lia. }
  assert (Hc0 : shp (core (fun s => s) (cop rlo (Z.of_nat (L / 2) - 1) (Z.of_nat d)) y0) = [b; n]) by (rewrite shp_core, Hs0; reflexivity).
  assert (Hc1 : shp (core (fun s => s) (cop rhi (Z.of_nat (L / 2) - 1) (Z.of_nat d)) y1) = [b; n]) by (rewrite shp_core, Hs1; reflexivity).
  apply t_ext.
  - apply wf_make.
  - apply wf_tlin; [apply wf_core|apply wf_core|congruence].
  - reflexivity.
  - unfold mean2. rewrite shp_make, Hsct. cbn [tlin shp]. rewrite Hc0. reflexivity.
  - intros idx Hv. unfold mean2 in *. rewrite shp_make in Hv. rewrite get_make by exact Hv. rewrite Hsct in Hv. cbn in Hv.
    rewrite get_tlin; [|apply wf_core|apply wf_core|congruence].
    destruct idx as [|ib [|o [|]]]; try (apply valid_length in Hv; discriminate).
    apply valid_cons_inv in Hv as [Hib Hv]. apply valid_cons_inv in Hv as [Ho _].
    change (insertn 1 0 [ib; o]) with [ib; 0; o]. change (insertn 1 1 [ib; o]) with [ib; 1; o]. rewrite !G by lia.
    rewrite !get_core; rewrite ?Hs0, ?Hs1; cbn [hd tl]; try valids; try exact Hib.
    unfold cop. cbn [hd bsel nth]. ring.
Qed.

Lemma iswt_level_facts (half : K) (rlo rhi : list K) (d : Z) a (lo hi : tensor K) : a < rank lo -> shp hi = shp lo ->
  wf (iswt_level half rlo rhi d a lo hi) /\ shp (iswt_level half rlo rhi d a lo hi) = shp lo /\
  ttag (iswt_level half rlo rhi d a lo hi) = ttag lo /\ rank (iswt_level half rlo rhi d a lo hi) = rank lo.
Proof.
  intros Ha Hs. unfold iswt_level.
  destruct (circ_axis_facts rlo (Z.of_nat (List.length rlo / 2) - 1) d a lo Ha) as (A & B & C & D).
  destruct (circ_axis_facts rhi (Z.of_nat (List.length rhi / 2) - 1) d a hi) as (A' & B' & C' & D'); [unfold rank in *; rewrite Hs; exact Ha|].
  repeat split; auto. apply wf_tlin; congruence.
Qed.

Lemma iswt_loop_ok half rlo rhi L filt a (his : list (tensor K)) : 2 <= L -> Nat.even L = true ->
  List.length rlo = L -> List.length rhi = L -> filt_ok filt 1 L rlo rhi -> forall lo : tensor K, wf lo -> a < rank lo ->
  Forall (fun t : tensor K => wf t /\ shp t = shp lo) his -> 0 < nth a (shp lo) 0 -> circ_levels L (List.length his) (nth a (shp lo) 0) ->
  iswt_loop half filt L (pre_t [a] lo) (map (pre_t [a]) his) = Ok (pre_t [a] (iswt_spec half rlo rhi a lo his)) /\
  wf (iswt_spec half rlo rhi a lo his) /\ shp (iswt_spec half rlo rhi a lo his) = shp lo /\ ttag (iswt_spec half rlo rhi a lo his) = ttag lo.
Proof.
  intros HL He H1 H2 Hf. induction his as [|hi his IH]; intros lo Hw Ha Hall Hn Hok; [cbn; auto|].
  inversion Hall as [|? ? [Hwh Hsh] Hall']; subst x l.
  cbn [map iswt_loop iswt_spec]. rewrite map_length.
  assert (Hrh : rank hi = rank lo) by (unfold rank; rewrite Hsh; reflexivity).
  pose proof (good_axes1 _ _ Ha) as Hg.
  set (d := 2 ^ List.length his).
  destruct (iswt_step half (pre_t [a] lo) (pre_t [a] hi) (prodl (fsz [a] (shp lo))) (nth a (shp lo) 0) filt rlo rhi L d) as (s & p & ct & E1 & E2 & E3 & E4); auto.
  { apply pre_t_wf. exact Hg. }
  { apply pre_t_wf. rewrite Hrh. exact Hg. }
  { cbn. rewrite Hsh. reflexivity. }
  { unfold d. pose proof (Nat.pow_nonzero 2 (List.length his)). lia. }
  { apply circ_ok_sym. apply Hok. cbn. lia. }
  rewrite E1. cbn [rbind]. rewrite E2. cbn [rbind]. rewrite E3. cbn [rbind]. rewrite E4.
  destruct (iswt_level_facts half rlo rhi (2 ^ Z.of_nat (List.length his)) a lo hi Ha Hsh) as (A & B & C & D).
  set (lo' := iswt_level half rlo rhi (2 ^ Z.of_nat (List.length his)) a lo hi) in *.
  replace (tlin half half _ _) with (pre_t [a] lo').
  2:{ unfold lo', iswt_level.
      destruct (circ_axis_facts rlo (Z.of_nat (List.length rlo / 2) - 1) (2 ^ Z.of_nat (List.length his)) a lo Ha) as (A1 & B1 & C1 & D1).
      destruct (circ_axis_facts rhi (Z.of_nat (List.length rhi / 2) - 1) (2 ^ Z.of_nat (List.length his)) a hi) as (A' & B' & C' & D'); [lia|].
      rewrite pre_tlin by congruence. rewrite !circ_axis_pre; auto; try lia; [|rewrite Hsh; exact Hn].
      rewrite H1, H2. unfold d. rewrite pow2z. reflexivity. }
  destruct (IH lo') as (I1 & I2 & I3 & I4); auto; try lia.
  - eapply Forall_impl; [|exact Hall']. cbv beta. intros t [T1 T2]. split; congruence.
  - rewrite B. exact Hn.
  - rewrite B. intros j Hj. apply Hok. cbn. lia.
  - repeat split; congruence.
Qed.

Theorem iswt_ok half lo his w L h axis : wf lo -> is_dtype_supported (tdtype lo) = true ->
  hint_axes h 1 = Some [axis] -> axis_ok (rank lo) axis ->
  let a := norm_axis (rank lo) axis in
  Forall (fun t : tensor K => wf t /\ shp t = shp lo /\ ttag t = ttag lo) his ->
  List.length (rec_lo w) = L -> List.length (rec_hi w) = L -> 2 <= L -> Nat.even L = true ->
  0 < nth a (shp lo) 0 -> circ_levels L (List.length his) (nth a (shp lo) 0) ->
  iswt half (map PT (lo :: his)) w h = Ok (iswt_spec half (rec_lo w) (rec_hi w) a lo his).
Proof.
  intros Hw Hd Hh Hax a Hall H1 H2 HL He Hn Hok.
  assert (Ha : a < rank lo) by (apply norm_axis_lt; exact Hax).
  pose proof (good_axes1 _ _ Ha) as Hg.
  unfold iswt. rewrite (preprocess_coeffs_ok (mkPC true (map PT (lo :: his))) 1 h [axis] (rank lo) false);
    auto using axis_axes_ok.
  - rewrite pc_map_list. change (first_shape (mkPC true (map PT (lo :: his)))) with (shp lo).
    change (map (norm_axis (rank lo)) [axis]) with [a]. cbn [rbind].
    rewrite (check_same_ok _ (ttag lo)); [|discriminate|].
    2:{ cbn [map]. constructor; [reflexivity|]. apply Forall_map. eapply Forall_impl; [|exact Hall]. cbn. intros t Ht. apply Ht. }
    cbn [rbind get_filter_tensors].
    destruct (filt_nd 1 (rec_lo w) (rec_hi w) false (ttag lo) L ltac:(lia) H1 H2) as (filt & Hf & Hfo).
    assert (Hf' := Hf). cbn [construct_nd_filt construct_1d_filt] in Hf'. unfold construct_1d_filt in Hf'. rewrite Hf'. cbn [rbind pc_items].
    rewrite rmap_as_tensor. cbn [rbind map].
    replace (dim_last (create_tensor (rec_lo w) false (ttag lo)) 1) with L by (symmetry; exact H1).
    destruct (iswt_loop_ok half (rec_lo w) (rec_hi w) L filt a his HL He H1 H2 Hfo lo) as (I1 & I2 & I3 & I4); auto.
    { eapply Forall_impl; [|exact Hall]. cbn. intros t Ht. split; apply Ht. }
    change (map (fun t => pre_t [a] t) his) with (map (pre_t [a]) his). rewrite I1. cbn [rbind].
    assert (Ir : rank (iswt_spec half (rec_lo w) (rec_hi w) a lo his) = rank lo) by (unfold rank; rewrite I3; reflexivity).
    rewrite (postprocess_tensor_ok _ 1 h [axis] (rank lo)); auto using axis_axes_ok.
    + cbn [map]. fold a. rewrite <- I3. rewrite post_pre; auto. rewrite Ir. exact Hg.
    + rewrite fsz_length by exact Hg. reflexivity.
    + apply pre_t_wf. rewrite Ir. exact Hg.
    + exists [nth a (shp (iswt_spec half (rec_lo w) (rec_hi w) a lo his)) 0]. cbn. rewrite I3. auto.
  - apply pc_regular_list. discriminate.
  - intros t Ht. rewrite pc_tensors_list in Ht. destruct Ht as [<-|Ht]; [auto|].
    rewrite Forall_forall in Hall. destruct (Hall t Ht) as (A & B & _). split; [exact A|unfold rank; rewrite B; reflexivity].
Qed.

(** * Composition of circular filters, perfect reconstruction *)
Lemma circ_conv_conv f g (c c' d : Z) n X o L : 0 < n -> List.length f = L -> List.length g = L ->
  circ_conv g c' d n (circ_conv f c d n X) o
  = sumf (2 * L) (fun t : nat => kmul (convc f g t) (X (cyc n (Z.of_nat o + d * (c + c' - Z.of_nat t))))).
Proof.
  intros Hn Hf Hg. unfold circ_conv. rewrite Hf, Hg.
  transitivity (sumf L (fun j => sumf L (fun i => kmul (kmul (nth i f kzero) (nth j g kzero)) (X (cyc n (Z.of_nat o + d * (c + c' - Z.of_nat (i + j)))))))).
  { apply sumf_ext. intros j Hj. rewrite <- sumf_mul_l. apply sumf_ext. intros i Hi.
    rewrite cyc_cyc by exact Hn.
    replace (Z.of_nat o + d * (c' - Z.of_nat j) + d * (c - Z.of_nat i))%Z with (Z.of_nat o + d * (c + c' - Z.of_nat (i + j)))%Z by lia. ring. }
  rewrite (sum_diag L (fun i j => kmul (nth i f kzero) (nth j g kzero)) (fun t : nat => X (cyc n (Z.of_nat o + d * (c + c' - Z.of_nat t))))).
  - reflexivity.
  - intros i j [H|H]; [rewrite (nth_overflow f) by lia|rewrite (nth_overflow g) by lia]; ring.
Qed.

Lemma circ_pr (half : K) dlo dhi rlo rhi L (d : Z) n X o : kadd half half = kone -> pr_bank dlo dhi rlo rhi L -> 0 < n -> o < n ->
  let c := Z.of_nat (L / 2) in
  kadd (kmul half (circ_conv rlo (c - 1) d n (circ_conv dlo c d n X) o)) (kmul half (circ_conv rhi (c - 1) d n (circ_conv dhi c d n X) o)) = X o.
Proof.
  intros Hh Hpr Hn Ho c. pose proof (pr_len _ _ _ _ _ Hpr) as (H1 & H2 & H3 & H4). pose proof (pr_two _ _ _ _ _ Hpr) as HL.
  rewrite (circ_conv_conv dlo rlo c (c - 1) d n X o L), (circ_conv_conv dhi rhi c (c - 1) d n X o L) by assumption.
  transitivity (kmul half (sumf (2 * L) (fun t : nat => kmul (kadd (convc dlo rlo t) (convc dhi rhi t)) (X (cyc n (Z.of_nat o + d * (c + (c - 1) - Z.of_nat t))))))).
  { transitivity (kmul half (kadd (sumf (2 * L) (fun t : nat => kmul (convc dlo rlo t) (X (cyc n (Z.of_nat o + d * (c + (c - 1) - Z.of_nat t))))))
       (sumf (2 * L) (fun t : nat => kmul (convc dhi rhi t) (X (cyc n (Z.of_nat o + d * (c + (c - 1) - Z.of_nat t)))))))); [ring|].
    f_equal. rewrite <- sumf_add. apply sumf_ext. intros t Ht. ring. }
  rewrite (sumf_single (2 * L) (L - 1)); [|lia|].
  - rewrite (pr_distortion _ _ _ _ _ Hpr), Nat.eqb_refl.
    replace (Z.of_nat o + d * (c + (c - 1) - Z.of_nat (L - 1)))%Z with (Z.of_nat o).
    + rewrite cyc_id by exact Ho. transitivity (kmul (kadd half half) (X o)); [ring|]. rewrite Hh. ring.
    + pose proof (pr_even _ _ _ _ _ Hpr) as He. apply Nat.even_spec in He as [h He]. unfold c. replace (L / 2) with h by lia. nia.
  - intros t Ht Hne. rewrite (pr_distortion _ _ _ _ _ Hpr). apply Nat.eqb_neq in Hne. rewrite Hne. ring.
Qed.

Lemma get_circ_axis f c d a x idx : a < rank x -> valid idx (shp x) ->
  get (circ_axis f c d a x) idx = circ_conv f c d (nth a (shp x) 0) (fun i => get x (updn a i idx)) (nth a idx 0).
Proof.
  intros Ha Hv. unfold circ_axis, along_axes. rewrite get_make; [reflexivity|]. rewrite upds_gather. exact Hv.
Qed.

Lemma valid_updn1 a i idx s : valid idx s -> i < nth a s 0 -> valid (updn a i idx) s.
Proof.
  intros H. revert a. induction H as [|j m idx s Hj H IH]; intros a Hi; [destruct a; constructor|].
  destruct a as [|a]; cbn in *; constructor; auto. apply IH. exact Hi.
Qed.
Lemma updn_updn1 a i j (idx : list nat) : updn a i (updn a j idx) = updn a i idx.
Proof. revert a. induction idx as [|b idx IH]; intros [|a]; cbn; auto. f_equal. apply IH. Qed.
Lemma updn_nth1 a (idx : list nat) : updn a (nth a idx 0) idx = idx.
Proof. revert a. induction idx as [|b idx IH]; intros [|a]; cbn; auto. f_equal. apply IH. Qed.
Lemma nth_updn1 a i (idx : list nat) : a < List.length idx -> nth a (updn a i idx) 0 = i.
Proof. revert a. induction idx as [|b idx IH]; intros [|a] H; cbn in *; try lia; auto. apply IH. lia. Qed.

Lemma circ_conv_ext f c d n X X' k : 0 < n -> (forall i, i < n -> X i = X' i) -> circ_conv f c d n X k = circ_conv f c d n X' k.
Proof. intros Hn H. unfold circ_conv. apply sumf_ext. intros i Hi. f_equal. apply H. apply cyc_lt. exact Hn. Qed.

Lemma circ_axis2 g f c c' d a x idx : a < rank x -> 0 < nth a (shp x) 0 -> valid idx (shp x) ->
  get (circ_axis g c' d a (circ_axis f c d a x)) idx
  = circ_conv g c' d (nth a (shp x) 0) (circ_conv f c d (nth a (shp x) 0) (fun i => get x (updn a i idx))) (nth a idx 0).
Proof.
  intros Ha Hn Hv. destruct (circ_axis_facts f c d a x Ha) as (A & B & C & D).
  rewrite get_circ_axis by (rewrite ?B; auto; lia). rewrite B. apply circ_conv_ext; [exact Hn|]. intros i Hi.
  rewrite get_circ_axis by auto using valid_updn1. pose proof (valid_length _ _ Hv) as Hl. fold (rank x) in Hl.
  rewrite nth_updn1 by lia. apply circ_conv_ext; [exact Hn|]. intros j Hj. rewrite updn_updn1. reflexivity.
Qed.

Lemma iswt_level_pr (half : K) dlo dhi rlo rhi L d a x : kadd half half = kone -> pr_bank dlo dhi rlo rhi L -> wf x -> a < rank x -> 0 < nth a (shp x) 0 ->
  iswt_level half rlo rhi d a (circ_axis dlo (Z.of_nat (L / 2)) d a x) (circ_axis dhi (Z.of_nat (L / 2)) d a x) = x.
Proof.
  intros Hh Hpr Hw Ha Hn. pose proof (pr_len _ _ _ _ _ Hpr) as (H1 & H2 & H3 & H4).
  destruct (circ_axis_facts dlo (Z.of_nat (L / 2)) d a x Ha) as (A & B & C & D).
  destruct (circ_axis_facts dhi (Z.of_nat (L / 2)) d a x Ha) as (A' & B' & C' & D').
  destruct (iswt_level_facts half rlo rhi d a (circ_axis dlo (Z.of_nat (L / 2)) d a x) (circ_axis dhi (Z.of_nat (L / 2)) d a x)) as (E & F & G & H); [lia|congruence|].
  apply t_ext; auto; try congruence. intros idx Hv. rewrite F, B in Hv.
  unfold iswt_level. rewrite get_tlin.
  - rewrite !circ_axis2 by assumption. rewrite H3, H4.
    assert (Hidx : nth a idx 0 < nth a (shp x) 0) by (apply valid_nth; [exact Hv|exact Ha]).
    rewrite (circ_pr half dlo dhi rlo rhi L d) by assumption. rewrite updn_nth1. reflexivity.
  - apply circ_axis_facts. lia.
  - apply circ_axis_facts. lia.
  - rewrite (proj1 (proj2 (circ_axis_facts rhi _ d a (circ_axis dhi (Z.of_nat (L / 2)) d a x) ltac:(lia)))).
    rewrite (proj1 (proj2 (circ_axis_facts rlo _ d a (circ_axis dlo (Z.of_nat (L / 2)) d a x) ltac:(lia)))). congruence.
Qed.

Lemma swt_approx_facts (lo : list K) a j x : wf x -> a < rank x ->
  wf (swt_approx lo a j x) /\ shp (swt_approx lo a j x) = shp x /\ ttag (swt_approx lo a j x) = ttag x /\ rank (swt_approx lo a j x) = rank x.
Proof.
  intros Hw Ha. induction j as [|j IH]; [cbn; auto|]. destruct IH as (A & B & C & D). cbn [swt_approx]. unfold swt_level.
  destruct (circ_axis_facts lo (Z.of_nat (List.length lo / 2)) (2 ^ (Z.of_nat (S j) - 1)) a (swt_approx lo a j x)) as (E & F & G & H); [lia|].
  repeat split; congruence.
Qed.
Lemma swt_spec_facts lo hi a J x : wf x -> a < rank x -> Forall (fun y : tensor K => wf y /\ shp y = shp x /\ ttag y = ttag x) (swt_spec lo hi a J x).
Proof.
  intros Hw Ha. constructor.
  - destruct (swt_approx_facts lo a J x Hw Ha) as (A & B & C & D). auto.
  - apply Forall_map. apply Forall_forall. intros j Hj. unfold swt_detail, swt_level.
    destruct (swt_approx_facts lo a (j - 1) x Hw Ha) as (A & B & C & D).
    destruct (circ_axis_facts hi (Z.of_nat (List.length hi / 2)) (2 ^ (Z.of_nat j - 1)) a (swt_approx lo a (j - 1) x)) as (E & F & G & H); [lia|].
    repeat split; congruence.
Qed.

Lemma iswt_spec_pr (half : K) dlo dhi rlo rhi L a J x : kadd half half = kone -> pr_bank dlo dhi rlo rhi L -> wf x -> a < rank x -> 0 < nth a (shp x) 0 ->
  iswt_spec half rlo rhi a (swt_approx dlo a J x) (map (fun j => swt_detail dlo dhi a j x) (rev (seq 1 J))) = x.
Proof.
  intros Hh Hpr Hw Ha Hn. pose proof (pr_len _ _ _ _ _ Hpr) as (H1 & H2 & H3 & H4). induction J as [|J IH]; [reflexivity|].
  rewrite seq_S, rev_app_distr. cbn [rev app map iswt_spec]. rewrite map_length, rev_length, seq_length.
  etransitivity; [|exact IH]. f_equal. unfold swt_detail. cbn [swt_approx]. change (1 + J) with (S J). replace (S J - 1) with J by lia. unfold swt_level.
  rewrite H1, H2. replace (Z.of_nat (S J) - 1)%Z with (Z.of_nat J) by lia.
  destruct (swt_approx_facts dlo a J x Hw Ha) as (A & B & C & D).
  apply (iswt_level_pr half dlo dhi rlo rhi L); auto; [lia|]. rewrite B. exact Hn.
Qed.

(** * Shifting *)
Lemma tshift_facts a s x : a < rank x -> wf (tshift a s x) /\ shp (tshift a s x) = shp x /\ ttag (tshift a s x) = ttag x /\ rank (tshift a s x) = rank x.
Proof.
  intros Ha. unfold tshift. repeat split.
  - apply wf_make.
  - rewrite shp_along. apply upds_gather.
  - apply rank_along.
Qed.
Lemma get_tshift a s x idx : a < rank x -> valid idx (shp x) ->
  get (tshift a s x) idx = get x (updn a (cyc (nth a (shp x) 0) (Z.of_nat (nth a idx 0) + s)) idx).
Proof. intros Ha Hv. unfold tshift, along_axes. rewrite get_make; [reflexivity|]. rewrite upds_gather. exact Hv. Qed.
Lemma circ_axis_shift f c d a s x : wf x -> a < rank x -> 0 < nth a (shp x) 0 ->
  circ_axis f c d a (tshift a s x) = tshift a s (circ_axis f c d a x).
Proof.
  intros Hw Ha Hn. destruct (tshift_facts a s x Ha) as (A & B & C & D). destruct (circ_axis_facts f c d a x Ha) as (E & F & G & H).
  destruct (circ_axis_facts f c d a (tshift a s x)) as (E' & F' & G' & H'); [lia|].
  destruct (tshift_facts a s (circ_axis f c d a x)) as (A' & B' & C' & D'); [lia|].
  apply t_ext; auto; try congruence. intros idx Hv. rewrite F', B in Hv.
  rewrite get_circ_axis by (rewrite ?B; auto; lia). rewrite get_tshift by (rewrite ?F; auto; lia). rewrite B, F.
  pose proof (valid_length _ _ Hv) as Hl. fold (rank x) in Hl.
  rewrite get_circ_axis by (auto; apply valid_updn1; auto using cyc_lt). rewrite nth_updn1 by lia.
  unfold circ_conv. apply sumf_ext. intros i Hi. f_equal.
  rewrite get_tshift by (auto; apply valid_updn1; auto using cyc_lt). rewrite nth_updn1, !updn_updn1 by lia. f_equal. f_equal.
  rewrite !cyc_cyc by exact Hn. f_equal. lia.
Qed.
Lemma swt_approx_shift lo a j s x : wf x -> a < rank x -> 0 < nth a (shp x) 0 ->
  swt_approx lo a j (tshift a s x) = tshift a s (swt_approx lo a j x).
Proof.
  intros Hw Ha Hn. induction j as [|j IH]; [reflexivity|]. cbn [swt_approx]. rewrite IH. unfold swt_level.
  destruct (swt_approx_facts lo a j x Hw Ha) as (A & B & C & D). apply circ_axis_shift; auto; [lia|]. rewrite B. exact Hn.
Qed.
Lemma swt_spec_shift lo hi a J s x : wf x -> a < rank x -> 0 < nth a (shp x) 0 ->
  swt_spec lo hi a J (tshift a s x) = map (tshift a s) (swt_spec lo hi a J x).
Proof.
  intros Hw Ha Hn. unfold swt_spec. cbn [map]. rewrite swt_approx_shift by assumption. f_equal. rewrite map_map. apply map_ext. intros j.
  unfold swt_detail. rewrite swt_approx_shift by assumption. unfold swt_level.
  destruct (swt_approx_facts lo a (j - 1) x Hw Ha) as (A & B & C & D). apply circ_axis_shift; auto; [lia|]. rewrite B. exact Hn.
Qed.
End SR.
