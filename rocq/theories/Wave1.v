(** wavedec / waverec: the 1d transform computes the specification and is inverted. *)
From Coq Require Import List Arith ZArith Lia Bool String.
From Coq Require Import ZifyNat ZifyBool.
From Verif Require Import Base Sums Tensor TensorFacts Util Perm Plumb Spec Conv1 PadFacts CoreFacts Analysis PRKernel Synthesis Filters.
Import ListNotations.
Ltac Zify.zify_post_hook ::= Z.div_mod_to_equations.

Section W1.
Context {K : CRing}.
Add Ring Kring : (cr_th K).
Implicit Types t u x y : tensor K.
Implicit Types lo hi : list K.
Implicit Types w : wavelet K.

(** * preprocessing of one tensor, any number of axes *)
Lemma preprocess_tensor_ok x N h axes ch : wf x -> is_dtype_supported (tdtype x) = true ->
  0 < N -> hint_axes h N = Some axes -> List.length axes = N -> axes_ok (rank x) axes ->
  preprocess_tensor x N h ch =
   Ok ((if ch then unsqueeze (pre_t (map (norm_axis (rank x)) axes) x) 1 else pre_t (map (norm_axis (rank x)) axes) x),
       fsz (map (norm_axis (rank x)) axes) (shp x) ++ gather (map (norm_axis (rank x)) axes) 0 (shp x)).
Proof.
  intros Hw Hd HN Hh Hl Ha. unfold preprocess_tensor.
  rewrite (preprocess_coeffs_ok (mkPC true [PT x]) N h axes (rank x) ch); auto.
  - unfold pc_regular. cbn. auto.
  - cbn. intros t [<-|[]]. auto.
Qed.

Lemma postprocess_tensor_ok y N h axes r F bk : 0 < N -> hint_axes h N = Some axes -> List.length axes = N -> axes_ok r axes ->
  List.length F = r - N -> List.length bk = N -> wf y -> (exists back, shp y = prodl F :: back /\ List.length back = N) ->
  postprocess_tensor y N (F ++ bk) h = Ok (post_t (map (norm_axis r) axes) F y).
Proof.
  intros HN Hh Hl Ha HF Hb Hw Hs. unfold postprocess_tensor.
  rewrite (postprocess_coeffs_ok (mkPC true [PT y]) N h axes r F bk); auto.
  - unfold pc_regular. cbn. auto.
  - cbn. intros t [<-|[]]. auto.
Qed.

Lemma preprocess_deconstruction_ok x w N h axes L : wf x -> is_dtype_supported (tdtype x) = true ->
  1 <= N <= 3 -> hint_axes h N = Some axes -> List.length axes = N -> axes_ok (rank x) axes ->
  List.length (dec_lo w) = L -> List.length (dec_hi w) = L ->
  let nax := map (norm_axis (rank x)) axes in
  exists filt, construct_nd_filt (create_tensor (dec_lo w) true (ttag x)) (create_tensor (dec_hi w) true (ttag x)) N = Ok filt /\
  preprocess_deconstruction x w N h = Ok (unsqueeze (pre_t nax x) 1, fsz nax (shp x) ++ gather nax 0 (shp x),
     create_tensor (dec_lo w) true (ttag x), create_tensor (dec_hi w) true (ttag x), filt).
Proof.
  intros Hw Hd HN Hh Hl Ha H1 H2 nax.
  destruct (filt_nd N (dec_lo w) (dec_hi w) true (ttag x) L HN H1 H2) as (f & Hf & _).
  exists f. split; [exact Hf|]. unfold preprocess_deconstruction.
  rewrite (preprocess_tensor_ok x N h axes true) by (auto; lia). cbn [rbind].
  unfold get_filter_tensors. fold nax. cbv iota beta zeta.
  change (ttag (unsqueeze (pre_t nax x) 1)) with (ttag x). rewrite Hf. reflexivity.
Qed.

Lemma get_padding_ok x nax N w L : get_len w = L -> List.length nax = N ->
  get_padding_n (unsqueeze (pre_t nax x) 1) w N = rev (map (fun n => get_pad n L) (gather nax 0 (shp x))).
Proof.
  intros HL HN. unfold get_padding_n. rewrite HL.
  assert (Hs : shp (unsqueeze (pre_t nax x) 1) = prodl (fsz nax (shp x)) :: 1 :: gather nax 0 (shp x)) by reflexivity.
  set (s := gather nax 0 (shp x)) in *. assert (Hls : List.length s = N) by (unfold s; rewrite gather_length; exact HN).
  apply (nth_ext_len _ _ (0, 0)); [rewrite rev_length, !map_length, seq_length; auto|].
  intros i Hi. rewrite map_length, seq_length in Hi. rewrite nth_map_seq by exact Hi.
  rewrite rev_nth by (rewrite map_length; lia). rewrite map_length, Hls.
  rewrite (nth_map_in _ _ _ 0) by lia. unfold dim_last, rank. rewrite Hs. cbn [List.length].
  replace (S (S (List.length s)) - S i) with (S (S (N - S i))) by lia. reflexivity.
Qed.

(** * facts about the multilevel specification *)
Lemma approx_S lo m nax j x : approx (K := K) lo m nax (S j) x = dwt_axes (repeat lo (List.length nax)) m nax (approx lo m nax j x).
Proof. reflexivity. Qed.

Lemma approx_S' lo m nax j x : approx (K := K) lo m nax (S j) x = approx lo m nax j (dwt_axes (repeat lo (List.length nax)) m nax x).
Proof. unfold approx. induction j as [|j IH]; [reflexivity|].
  change (dwt_axes (repeat lo (List.length nax)) m nax (Nat.iter (S j) (dwt_axes (repeat lo (List.length nax)) m nax) x)
    = dwt_axes (repeat lo (List.length nax)) m nax (Nat.iter j (dwt_axes (repeat lo (List.length nax)) m nax) (dwt_axes (repeat lo (List.length nax)) m nax x))).
  rewrite <- IH. reflexivity. Qed.

Lemma approx_rank lo m nax j x : rank (approx (K := K) lo m nax j x) = rank x.
Proof. induction j as [|j IH]; [reflexivity|]. rewrite approx_S. unfold dwt_axes. rewrite rank_along. exact IH. Qed.

Lemma approx_wf lo m nax j x : wf x -> wf (approx (K := K) lo m nax j x).
Proof. intros H. destruct j; [exact H|]. rewrite approx_S. apply wf_make. Qed.

Lemma approx_ttag lo m nax j x : ttag (approx (K := K) lo m nax j x) = ttag x.
Proof. induction j as [|j IH]; [reflexivity|]. rewrite approx_S. exact IH. Qed.

Lemma approx_fsz lo m nax j x : good_axes (rank x) nax -> fsz nax (shp (approx (K := K) lo m nax j x)) = fsz nax (shp x).
Proof.
  intros Hg. induction j as [|j IH]; [reflexivity|]. rewrite approx_S. unfold dwt_axes. rewrite fsz_along; [exact IH|].
  rewrite approx_rank. exact Hg.
Qed.

Lemma len_after_S L j n : len_after L (S j) n = dwt_len L (len_after L j n).
Proof. revert n. induction j as [|j IH]; intros n; [reflexivity|]. cbn [len_after] in *. rewrite IH. reflexivity. Qed.

Lemma Forall_repeat {A} (P : A -> Prop) a n : P a -> Forall P (repeat a n).
Proof. intros H. induction n; cbn; constructor; auto. Qed.

Lemma approx_sizes lo m L nax j x : good_axes (rank x) nax -> List.length lo = L ->
  gather nax 0 (shp (approx (K := K) lo m nax j x)) = map (len_after L j) (gather nax 0 (shp x)).
Proof.
  intros Hg HL. induction j as [|j IH]; [cbn; symmetry; apply map_id|].
  rewrite approx_S, (dwt_axes_sizes _ m L).
  - rewrite IH, map_map. apply map_ext. intros n. symmetry. apply len_after_S.
  - rewrite approx_rank. exact Hg.
  - apply repeat_length.
  - apply Forall_repeat. exact HL.
Qed.

Definition levels_axes (m : mode) (L J : nat) (nax s : list nat) : Prop :=
  Forall (levels_ok m L J) (gather nax 0 s).

Lemma levels_axes_adm lo m L J nax x j : good_axes (rank x) nax -> List.length lo = L -> levels_axes m L J nax (shp x) -> j < J ->
  adm_axes m L nax (shp (approx (K := K) lo m nax j x)).
Proof.
  intros Hg HL Hlev Hj. unfold adm_axes. rewrite (approx_sizes lo m L) by assumption.
  apply Forall_map. eapply Forall_impl; [|exact Hlev]. intros n Hn. apply Hn. exact Hj.
Qed.

(** * wavedec *)
Lemma fwt_pad_ok x nax m (w : wavelet K) L : get_len w = L -> List.length nax = 1 ->
  fwt_pad (unsqueeze (pre_t nax x) 1) w (Some (mode_name m)) None
  = pad_dispatch (unsqueeze (pre_t nax x) 1) (rev (map (fun n => get_pad n L) (gather nax 0 (shp x)))) (emode m).
Proof.
  intros HL Hn. unfold fwt_pad. rewrite translate_mode. cbn [rbind]. rewrite (get_padding_ok x nax 1 w L HL Hn). reflexivity.
Qed.

Lemma squeeze_unsq_pre nax x : squeeze (unsqueeze (pre_t (K := K) nax x) 1) 1 = pre_t nax x.
Proof. apply squeeze_unsqueeze. unfold rank. cbn. lia. Qed.

Lemma wavedec_loop_ok J : forall (w : wavelet K) m L a x filt acc, wf x -> a < rank x ->
  List.length (dec_lo w) = L -> List.length (dec_hi w) = L -> 2 <= L -> Nat.even L = true ->
  levels_axes m L J [a] (shp x) ->
  construct_nd_filt (create_tensor (dec_lo w) true (ttag x)) (create_tensor (dec_hi w) true (ttag x)) 1 = Ok filt ->
  wavedec_loop J w (Some (mode_name m)) filt (unsqueeze (pre_t [a] x) 1) acc
  = Ok (unsqueeze (pre_t [a] (approx (dec_lo w) m [a] J x)) 1,
        acc ++ map (fun j => pre_t [a] (detail (dec_lo w) [dec_hi w] m [a] j x)) (seq 1 J)).
Proof.
  induction J as [|J IH]; intros w m L a x filt acc Hw Ha H1 H2 HL He Hlev Hf.
  - cbn. rewrite app_nil_r. reflexivity.
  - cbn [wavedec_loop]. rewrite (fwt_pad_ok x [a] m w L) by (try exact H1; reflexivity).
    assert (Hg : good_axes (rank x) [a]) by (split; [repeat constructor; auto|intros d [<-|[]]; exact Ha]).
    destruct (dec_step 1 (dec_lo w) (dec_hi w) m L [a] x filt (ttag x) true) as (p & res & E1 & E2 & E3 & E4); auto; try lia.
    { apply (levels_axes_adm (dec_lo w) m L (S J) [a] x 0); auto. lia. }
    rewrite E1. cbn [rbind]. rewrite E2. cbn [rbind]. rewrite E4. cbn [map seq Nat.pow Nat.mul Nat.add chanD bsels bsel].
    rewrite squeeze_unsq_pre.
    set (x1 := dwt_axes [dec_lo w] m [a] x).
    rewrite (IH w m L a x1 filt); auto.
    + rewrite (approx_S' (dec_lo w) m [a] J x). fold x1. do 2 f_equal. rewrite <- app_assoc. f_equal. cbn [app]. f_equal.
      rewrite <- (seq_shift J 1), map_map. apply map_ext_in. intros j Hj. apply in_seq in Hj.
      unfold detail. replace (S j - 1) with (S (j - 1)) by lia. rewrite approx_S'. reflexivity.
    + apply wf_make.
    + unfold x1, dwt_axes. rewrite rank_along. exact Ha.
    + unfold levels_axes in *. unfold x1. rewrite (dwt_axes_sizes _ m L); auto.
      apply Forall_map. eapply Forall_impl; [|exact Hlev]. intros n Hn j Hj. apply (Hn (S j)). lia.
Qed.

Lemma good_axes1 r a : a < r -> good_axes r [a].
Proof. intros Ha. split; [repeat constructor; auto|intros d [<-|[]]; exact Ha]. Qed.

Definition axis_ok (r : nat) (axis : Z) : Prop := (- Z.of_nat r <= axis < Z.of_nat r)%Z.

Lemma axis_axes_ok r axis : axis_ok r axis -> axes_ok r [axis].
Proof. intros H. split; [repeat constructor; apply H|]. cbn. repeat constructor; auto. Qed.

Lemma detail_facts lo fs m L nax j x : wf x -> good_axes (rank x) nax -> List.length lo = L ->
  List.length fs = List.length nax -> Forall (fun f => List.length f = L) fs ->
  wf (detail (K := K) lo fs m nax j x) /\ rank (detail lo fs m nax j x) = rank x /\
  fsz nax (shp (detail lo fs m nax j x)) = fsz nax (shp x) /\
  gather nax 0 (shp (detail lo fs m nax j x)) = map (fun n => dwt_len L (len_after L (j - 1) n)) (gather nax 0 (shp x)).
Proof.
  intros Hw Hg HL Hl Hf. unfold detail. repeat split.
  - apply wf_make.
  - unfold dwt_axes. rewrite rank_along. apply approx_rank.
  - unfold dwt_axes. rewrite fsz_along; [apply approx_fsz; exact Hg|rewrite approx_rank; exact Hg].
  - rewrite (dwt_axes_sizes _ m L); auto; [|rewrite approx_rank; exact Hg].
    rewrite (approx_sizes _ m L), map_map by assumption. reflexivity.
Qed.

Definition lev_of (level : option Z) (n L J : nat) : Prop :=
  match level with Some z => J = Z.to_nat z | None => dwt_max_level n L = Ok J end.

Theorem wavedec_ok x (w : wavelet K) m L J level axis : wf x -> is_dtype_supported (tdtype x) = true ->
  axis_ok (rank x) axis -> List.length (dec_lo w) = L -> List.length (dec_hi w) = L -> 2 <= L -> Nat.even L = true ->
  let a := norm_axis (rank x) axis in
  lev_of level (nth a (shp x) 0) L J ->
  levels_ok m L J (nth a (shp x) 0) ->
  wavedec x w (Some (mode_name m)) level axis
  = Ok (mkPC true (map PT (wavedec_spec (dec_lo w) (dec_hi w) m a J x))).
Proof.
  intros Hw Hd Hax H1 H2 HL He a Hlev Hok.
  assert (Har : a < rank x) by (apply norm_axis_lt; exact Hax).
  pose proof (good_axes1 _ _ Har) as Hg.
  destruct (preprocess_deconstruction_ok x w 1 (AxInt axis) [axis] L) as (filt & Hf & Hp); auto using axis_axes_ok.
  unfold wavedec. rewrite Hp. cbn [rbind map]. fold a.
  assert (Hl : match level with Some l => Ok l
     | None => let* mm := dwt_max_level (dim_last (unsqueeze (pre_t [a] x) 1) 1) (dim_last (create_tensor (dec_lo w) true (ttag x)) 1) in Ok (Z.of_nat mm) end
     = Ok (match level with Some l => l | None => Z.of_nat J end)).
  { destruct level as [z|]; [reflexivity|]. cbn [lev_of] in Hlev.
    change (dim_last (unsqueeze (pre_t [a] x) 1) 1) with (nth a (shp x) 0).
    change (dim_last (create_tensor (dec_lo w) true (ttag x)) 1) with (List.length (dec_lo w)).
    rewrite H1, Hlev. reflexivity. }
  rewrite Hl. cbn [rbind]. unfold range_level.
  replace (Z.to_nat (match level with Some l => l | None => Z.of_nat J end)) with J
    by (destruct level; [exact Hlev|lia]).
  assert (Hlx : levels_axes m L J [a] (shp x)) by (unfold levels_axes; cbn; constructor; [exact Hok|constructor]).
  rewrite (wavedec_loop_ok J w m L a x filt []); auto. cbn [rbind app].
  rewrite rev_app_distr. cbn [rev app]. rewrite squeeze_unsq_pre, <- map_rev.
  set (pt := fun j => pre_t [a] (detail (dec_lo w) [dec_hi w] m [a] j x)).
  replace (pre_t [a] (approx (dec_lo w) m [a] J x) :: map pt (rev (seq 1 J)))
    with (map (pre_t [a]) (wavedec_spec (dec_lo w) (dec_hi w) m a J x)).
  2:{ unfold wavedec_spec. cbn [map]. rewrite map_map. reflexivity. }
  assert (Hspec : forall y, In y (wavedec_spec (dec_lo w) (dec_hi w) m a J x) -> wf y /\ rank y = rank x /\ fsz [a] (shp y) = fsz [a] (shp x)).
  { intros y [<-|Hy].
    - split; [apply approx_wf; exact Hw|]. split; [apply approx_rank|apply approx_fsz; exact Hg].
    - apply in_map_iff in Hy as (j & <- & Hj).
      destruct (detail_facts (dec_lo w) [dec_hi w] m L [a] j x) as (F1 & F2 & F3 & F4); auto. }
  pose proof (fsz_length [a] (shp x) Hg) as HF. cbn [List.length] in HF. fold (rank x) in HF.
  rewrite (postprocess_coeffs_ok _ 1 (AxInt axis) [axis] (rank x) (fsz [a] (shp x)) (gather [a] 0 (shp x))); auto using axis_axes_ok.
  - rewrite pc_map_list. do 3 f_equal. rewrite map_map. cbn [map]. fold a.
    rewrite <- (map_id (wavedec_spec _ _ _ _ _ _)) at 2. apply map_ext_in. intros y Hy.
    destruct (Hspec y Hy) as (Y1 & Y2 & Y3). rewrite <- Y3. apply post_pre; [exact Y1|]. rewrite Y2. exact Hg.
  - apply pc_regular_list. discriminate.
  - intros t Ht. rewrite pc_tensors_list in Ht. apply in_map_iff in Ht as (y & <- & Hy).
    destruct (Hspec y Hy) as (Y1 & Y2 & Y3). split; [apply pre_t_wf; rewrite Y2; exact Hg|].
    exists [nth a (shp y) 0]. cbn. rewrite Y3. auto.
Qed.

End W1.
