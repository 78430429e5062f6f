(** wavedec: when it returns and how it fails. *)
From Coq Require Import List Arith ZArith Lia Bool String.
From Coq Require Import ZifyNat ZifyBool.
From Verif Require Import Base Sums Tensor TensorFacts Util Perm Plumb Accept Spec Conv1 PadFacts CoreFacts Analysis AnalysisInv PRKernel Synthesis Filters Wave1.
Import ListNotations.
Ltac Zify.zify_post_hook ::= Z.div_mod_to_equations.

Section WI.
Context {K : CRing}.
Add Ring Kring : (cr_th K).
Implicit Types t u x y : tensor K.
Implicit Types lo hi : list K.
Implicit Types w : wavelet K.

(** * one analysis step that returns *)
Lemma dec_step_inv D lo hi m L nax x filt g fl p res : 1 <= D <= 3 -> List.length nax = D -> wf x -> good_axes (rank x) nax ->
  List.length lo = L -> List.length hi = L -> 2 <= L -> Nat.even L = true ->
  construct_nd_filt (create_tensor lo fl g) (create_tensor hi fl g) D = Ok filt ->
  pad_dispatch (unsqueeze (pre_t nax x) 1) (rev (map (fun n => get_pad n L) (gather nax 0 (shp x)))) (emode m) = Ok p ->
  conv_nd 2 1 p filt = Ok res -> adm_axes m L nax (shp x).
Proof.
  intros HD Hn Hw Hg Hlo Hhi HL He Hc Hp Hr.
  destruct (filt_nd D lo hi fl g L HD Hlo Hhi) as (f & Hf & Hf1 & Hf2). rewrite Hc in Hf. injection Hf as <-.
  assert (Hlg : List.length (gather nax 0 (shp x)) = D) by (rewrite gather_length; exact Hn).
  apply (analysis_inv m (prodl (fsz nax (shp x))) (gather nax 0 (shp x)) (pre_t nax x) filt (2 ^ D) L p res); auto.
  - apply pre_t_wf. exact Hg.
  - lia.
  - rewrite Hlg. exact Hf1.
Qed.

(** * one analysis step that fails *)
Lemma conv_err str dil t u e : conv_nd (K := K) str dil t u = Raise e -> e = RuntimeError.
Proof.
  unfold conv_nd. destruct (shp t) as [|b [|c s]]; try (intros H; injection H as <-; reflexivity).
  destruct (shp u) as [|b' [|c' s']]; try (intros H; injection H as <-; reflexivity).
  destruct (_ && _ && _); [discriminate|]. intros H; injection H as <-; reflexivity.
Qed.

Lemma dec_step_err D m L nax x e : 1 <= D <= 3 -> List.length nax = D -> wf x -> good_axes (rank x) nax -> 2 <= L ->
  Forall (fun n => 0 < n) (gather nax 0 (shp x)) ->
  pad_dispatch (unsqueeze (pre_t nax x) 1) (rev (map (fun n => get_pad n L) (gather nax 0 (shp x)))) (emode m) = Raise e ->
  e = RuntimeError.
Proof.
  intros HD Hn Hw Hg HL Hpos Hp. set (s := gather nax 0 (shp x)) in *.
  assert (Hls : List.length s = D) by (unfold s; rewrite gather_length; exact Hn).
  destruct m.
  4:{ exfalso. 
      pose proof (pad_dispatch_ok Msymmetric (unsqueeze (pre_t nax x) 1) [prodl (fsz nax (shp x)); 1] s (map (fun n => get_pad n L) s)) as Hk.
      rewrite Hk in Hp; try discriminate; auto.
      - apply wf_unsqueeze, pre_t_wf. exact Hg.
      - rewrite map_length. reflexivity.
      - rewrite map_length. lia.
      - clear - Hpos HL. induction Hpos as [|n s H1 H2 IH]; cbn [map]; constructor; [|exact IH].
        apply adm_padok; [exact HL|exact H1]. }
  all: cbn [emode pad_dispatch] in Hp; rewrite rev_involutive in Hp; unfold fpad in Hp; rewrite map_length, Hls in Hp;
    change (rank (unsqueeze (pre_t nax x) 1)) with (S (S (List.length s))) in Hp; rewrite Hls in Hp;
    destruct (Nat.ltb_spec (S (S D)) D) as [?|_]; [lia|];
    replace (Nat.eqb (S (S D)) (D + 2)) with true in Hp by (symmetry; apply Nat.eqb_eq; lia);
    replace (Nat.leb 1 D) with true in Hp by (symmetry; apply Nat.leb_le; lia);
    replace (Nat.leb D 3) with true in Hp by (symmetry; apply Nat.leb_le; lia);
    rewrite ?orb_true_r in Hp; cbn [andb negb] in Hp;
    destruct (negb _); [injection Hp as <-; reflexivity|discriminate].
Qed.

Lemma dwt_len_pos L n : 2 <= L -> 0 < n -> 0 < dwt_len L n.
Proof. intros H1 H2. unfold dwt_len. lia. Qed.

(** * the loop *)
Lemma wavedec_loop_dich J : forall (w : wavelet K) m L a x filt acc, wf x -> a < rank x ->
  List.length (dec_lo w) = L -> List.length (dec_hi w) = L -> 2 <= L -> Nat.even L = true ->
  construct_nd_filt (create_tensor (dec_lo w) true (ttag x)) (create_tensor (dec_hi w) true (ttag x)) 1 = Ok filt ->
  match wavedec_loop J w (Some (mode_name m)) filt (unsqueeze (pre_t [a] x) 1) acc with
  | Ok _ => levels_axes m L J [a] (shp x)
  | Raise e => 0 < nth a (shp x) 0 -> e = RuntimeError
  end.
Proof.
  induction J as [|J IH]; intros w m L a x filt acc Hw Ha H1 H2 HL He Hf.
  - cbn. unfold levels_axes. cbn. constructor; [|constructor]. intros j Hj. lia.
  - cbn [wavedec_loop]. rewrite (fwt_pad_ok x [a] m w L) by (try exact H1; reflexivity).
    pose proof (good_axes1 _ _ Ha) as Hg.
    destruct (pad_dispatch _ _ _) as [p|e] eqn:Ep.
    2:{ cbn. intros Hpos. apply (dec_step_err 1 m L [a] x e); auto; try lia; exact (Forall_cons _ Hpos (Forall_nil _)). }
    cbn [rbind]. destruct (conv_nd 2 1 p filt) as [res|e] eqn:Ec.
    2:{ cbn. intros _. apply (conv_err _ _ _ _ _ Ec). }
    cbn [rbind].
    assert (Hadm : adm_axes m L [a] (shp x)).
    { apply (dec_step_inv 1 (dec_lo w) (dec_hi w) m L [a] x filt (ttag x) true p res); auto; lia. }
    destruct (dec_step 1 (dec_lo w) (dec_hi w) m L [a] x filt (ttag x) true) as (p' & res' & E1 & E2 & E3 & E4); auto; try lia.
    rewrite Ep in E1. injection E1 as <-. rewrite Ec in E2. injection E2 as <-.
    rewrite E4. cbn [map seq Nat.pow Nat.mul Nat.add chanD bsels bsel].
    set (x1 := dwt_axes [dec_lo w] m [a] x).
    assert (Hsz : nth a (shp x1) 0 = dwt_len L (nth a (shp x) 0)).
    { assert (Hs : gather [a] 0 (shp x1) = map (dwt_len L) (gather [a] 0 (shp x))) by (apply dwt_axes_sizes; auto).
      exact (f_equal (hd 0) Hs). }
    match goal with |- context [wavedec_loop J w _ filt _ ?acc'] =>
      specialize (IH w m L a x1 filt acc' (wf_make _ _ _)) end.
    unfold x1 at 1 in IH. unfold dwt_axes in IH at 1. rewrite rank_along in IH. specialize (IH Ha H1 H2 HL He Hf).
    destruct (wavedec_loop J w _ filt _ _) as [r|e].
    + unfold levels_axes in *. cbn [gather map] in *. rewrite Hsz in IH. constructor; [|constructor].
      inversion IH as [|? ? Hlev _]; subst. inversion Hadm as [|? ? Hadm0 _]; subst.
      intros j Hj. destruct j as [|j]; [exact Hadm0|]. cbn [len_after]. apply Hlev. lia.
    + intros Hpos. apply IH. rewrite Hsz. apply dwt_len_pos; assumption.
Qed.

(** level argument -> number of levels *)
Lemma lev_of_total level n L : 2 <= L -> exists J, lev_of level n L J.
Proof.
  intros HL. destruct level as [z|]; [exists (Z.to_nat z); reflexivity|]. cbn. unfold dwt_max_level.
  destruct (Nat.ltb_spec L 2); [lia|]. destruct (Nat.ltb n (L - 1)); eauto.
Qed.

Lemma lev_of_fun level n L J J' : lev_of level n L J -> lev_of level n L J' -> J = J'.
Proof. destruct level; cbn; [congruence|]. intros -> H. injection H as ->. reflexivity. Qed.

Theorem wavedec_dich x w m L J level axis : wf x -> is_dtype_supported (tdtype x) = true ->
  axis_ok (rank x) axis -> List.length (dec_lo w) = L -> List.length (dec_hi w) = L -> 2 <= L -> Nat.even L = true ->
  let n := nth (norm_axis (rank x) axis) (shp x) 0 in
  lev_of level n L J ->
  match wavedec x w (Some (mode_name m)) level axis with
  | Ok _ => levels_ok m L J n
  | Raise e => 0 < n -> e = RuntimeError /\ ~ levels_ok m L J n
  end.
Proof.
  intros Hw Hd Hax H1 H2 HL He n Hlev. set (a := norm_axis (rank x) axis) in *.
  destruct (wavedec x w (Some (mode_name m)) level axis) as [c|e] eqn:E.
  - (* returns *)
    assert (Har : a < rank x) by (apply norm_axis_lt; exact Hax).
    destruct (preprocess_deconstruction_ok x w 1 (AxInt axis) [axis] L) as (filt & Hf & Hp); auto using axis_axes_ok.
    unfold wavedec in E. rewrite Hp in E. cbn [rbind map] in E. fold a in E.
    apply rbind_ok in E as (lev & El & E).
    assert (Hj : Z.to_nat lev = J).
    { destruct level as [z|]; [injection El as <-; symmetry; exact Hlev|]. cbn [lev_of] in Hlev.
      change (dim_last (unsqueeze (pre_t [a] x) 1) 1) with n in El.
      change (dim_last (create_tensor (dec_lo w) true (ttag x)) 1) with (List.length (dec_lo w)) in El.
      rewrite H1, Hlev in El. injection El as <-. lia. }
    unfold range_level in E. rewrite Hj in E.
    pose proof (wavedec_loop_dich J w m L a x filt [] Hw Har H1 H2 HL He Hf) as Hl.
    destruct (wavedec_loop J w _ filt _ _) as [r|e]; [|discriminate].
    unfold levels_axes in Hl. cbn in Hl. inversion Hl; assumption.
  - intros Hpos.
    assert (Hnot : ~ levels_ok m L J n).
    { intros Hok. rewrite (wavedec_ok x w m L J level axis) in E; auto. discriminate. }
    split; [|exact Hnot].
    assert (Har : a < rank x) by (apply norm_axis_lt; exact Hax).
    pose proof (good_axes1 _ _ Har) as Hg.
    destruct (preprocess_deconstruction_ok x w 1 (AxInt axis) [axis] L) as (filt & Hf & Hp); auto using axis_axes_ok.
    unfold wavedec in E. rewrite Hp in E. cbn [rbind map] in E. fold a in E.
    assert (Hl : match level with Some l => Ok l
     | None => let* mm := dwt_max_level (dim_last (unsqueeze (pre_t [a] x) 1) 1) (dim_last (create_tensor (dec_lo w) true (ttag x)) 1) in Ok (Z.of_nat mm) end
     = Ok (match level with Some l => l | None => Z.of_nat J end)).
    { destruct level as [z|]; [reflexivity|]. cbn [lev_of] in Hlev.
      change (dim_last (unsqueeze (pre_t [a] x) 1) 1) with n.
      change (dim_last (create_tensor (dec_lo w) true (ttag x)) 1) with (List.length (dec_lo w)).
      rewrite H1, Hlev. reflexivity. }
    rewrite Hl in E. cbn [rbind] in E. unfold range_level in E.
    replace (Z.to_nat (match level with Some l => l | None => Z.of_nat J end)) with J in E
      by (destruct level; [exact Hlev|lia]).
    pose proof (wavedec_loop_dich J w m L a x filt [] Hw Har H1 H2 HL He Hf) as Hlp.
    destruct (wavedec_loop J w _ filt _ _) as [[lo acc]|e'] eqn:El.
    + exfalso. apply Hnot. unfold levels_axes in Hlp. cbn in Hlp. inversion Hlp; assumption.
    + cbn [rbind] in E. injection E as <-. apply Hlp. exact Hpos.
Qed.

(** everything wavedec accepts (filters of equal even length) *)
Theorem wavedec_inv x w m L level axis c : wf x ->
  List.length (dec_lo w) = L -> List.length (dec_hi w) = L -> 2 <= L -> Nat.even L = true ->
  wavedec x w (Some (mode_name m)) level axis = Ok c ->
  is_dtype_supported (tdtype x) = true /\ axis_ok (rank x) axis /\
  exists J, lev_of level (nth (norm_axis (rank x) axis) (shp x) 0) L J /\ levels_ok m L J (nth (norm_axis (rank x) axis) (shp x) 0).
Proof.
  intros Hw H1 H2 HL He E.
  assert (Hpre : is_dtype_supported (tdtype x) = true /\ axis_ok (rank x) axis).
  { pose proof E as E'. unfold wavedec in E'. apply rbind_ok in E' as (pp & Hpp & _).
    unfold preprocess_deconstruction in Hpp. apply rbind_ok in Hpp as (r & Hr & _).
    apply preprocess_tensor_inv in Hr as (Hd & _ & axes & Hh & Hla & Ha). cbn in Hh. injection Hh as <-.
    split; [exact Hd|]. destruct Ha as [Ha _]. inversion Ha; assumption. }
  destruct Hpre as [Hd Hax]. split; [exact Hd|]. split; [exact Hax|].
  destruct (lev_of_total level (nth (norm_axis (rank x) axis) (shp x) 0) L HL) as (J & HJ).
  exists J. split; [exact HJ|].
  pose proof (wavedec_dich x w m L J level axis Hw Hd Hax H1 H2 HL He HJ) as H. rewrite E in H. exact H.
Qed.

(** * arithmetic of levels *)
Lemma levels_ok_free m L J n : m = Mzero \/ m = Mconstant \/ m = Msymmetric -> 2 <= L -> 0 < n -> levels_ok m L J n.
Proof.
  intros Hm HL Hn j Hj. assert (Hp : 0 < len_after L j n).
  { clear Hj. revert n Hn. induction j as [|j IH]; intros n Hn; [exact Hn|]. cbn. apply IH. apply dwt_len_pos; assumption. }
  destruct Hm as [->|[->| ->]]; cbn; lia.
Qed.

(** the default level never makes the padding too large *)
Lemma levels_ok_pow m L J n : 2 <= L -> 0 < n -> Nat.even L = true -> 2 ^ J * (L - 1) <= n -> levels_ok m L J n.
Proof.
  intros HL Hn He. revert n Hn. induction J as [|J IH]; intros n Hn Hp; [intros j Hj; lia|].
  intros j Hj. destruct j as [|j].
  - cbn [len_after]. rewrite Nat.pow_succ_r' in Hp. pose proof (Nat.pow_nonzero 2 J).
    assert (2 * (L - 1) <= n) by nia. apply Nat.even_spec in He as [q He].
    destruct m; cbn; lia.
  - cbn [len_after]. apply (IH (dwt_len L n)).
    + apply dwt_len_pos; assumption.
    + unfold dwt_len. rewrite Nat.pow_succ_r' in Hp. apply Nat.div_le_lower_bound; [lia|]. nia.
    + lia.
Qed.

Lemma dwt_max_level_pow n L J : 2 <= L -> dwt_max_level n L = Ok J -> J = 0 \/ 2 ^ J * (L - 1) <= n.
Proof.
  intros HL. unfold dwt_max_level. destruct (Nat.ltb_spec L 2); [lia|].
  destruct (Nat.ltb_spec n (L - 1)) as [Hn|Hn]; intros E; injection E as <-; [auto|]. right.
  assert (Hq : 0 < n / (L - 1)) by (apply Nat.div_str_pos; lia).
  pose proof (Nat.log2_spec _ Hq) as [Hl _]. apply Nat.le_trans with (n / (L - 1) * (L - 1)); [nia|].
  rewrite Nat.mul_comm. apply Nat.mul_div_le. lia.
Qed.

End WI.
