(** The filter tensors built by _construct_{1,2,3}d_filt, and one analysis / synthesis step
    in terms of the original (not preprocessed) tensors. *)
From Coq Require Import List Arith ZArith Lia Bool String.
From Coq Require Import ZifyNat ZifyBool.
From Verif Require Import Base Sums Tensor TensorFacts Util Perm Plumb Spec Conv1 PadFacts CoreFacts Analysis PRKernel Synthesis.
Import ListNotations.
Ltac Zify.zify_post_hook ::= Z.div_mod_to_equations.

Ltac valids := repeat (apply Forall2_cons; [first [assumption|lia|nia]|]); apply Forall2_nil.

Section Filt.
Context {K : CRing}.
Add Ring Kring : (cr_th K).
Implicit Types t u x : tensor K.

(** channel order of the transforms *)
Definition chanD (D c : nat) : list nat :=
  match D with
  | 1 => [c]
  | 2 => match c with 0 => [0; 0] | 1 => [1; 0] | 2 => [0; 1] | _ => [1; 1] end
  | _ => match c with
         | 0 => [0; 0; 0] | 1 => [0; 0; 1] | 2 => [0; 1; 0] | 3 => [0; 1; 1]
         | 4 => [1; 0; 0] | 5 => [1; 0; 1] | 6 => [1; 1; 0] | _ => [1; 1; 1] end
  end.

Lemma chan_ok_D D : 1 <= D <= 3 -> chan_ok (K := K) (2 ^ D) D (chanD D).
Proof.
  intros HD. assert (D = 1 \/ D = 2 \/ D = 3) as [->|[->| ->]] by lia; (split; [intros c Hc; cbn in Hc; do 8 (destruct c as [|c]; [reflexivity|]); reflexivity|]); intros f; cbn; ring.
Qed.

Lemma wf_create l fl (g : tag) : wf (create_tensor (K := K) l fl g).
Proof. unfold wf, create_tensor. cbn [shp dat]. rewrite !prodl_cons, prodl_nil. destruct fl; rewrite ?rev_length; lia. Qed.

Definition mayrev (fl : bool) (l : list K) : list K := if fl then rev l else l.
Lemma mayrev_length fl l : List.length (mayrev fl l) = List.length l.
Proof. destruct fl; cbn; rewrite ?rev_length; reflexivity. Qed.

Lemma get_create l fl g j : j < List.length l -> get (create_tensor l fl g) [0; j] = nth j (mayrev fl l) kzero.
Proof. intros H. unfold get, create_tensor. cbn [shp dat ravel]. rewrite !prodl_cons, prodl_nil. f_equal. lia. Qed.

Definition filt_ok (filt : tensor K) (D L : nat) (lo hi : list K) : Prop :=
  shp filt = 2 ^ D :: 1 :: repeat L D /\
  forall c js, c < 2 ^ D -> valid js (repeat L D) -> get filt (c :: 0 :: js) = taps (bsels lo hi (chanD D c)) js.

Lemma valid_cons_inv i is n s : valid (i :: is) (n :: s) -> i < n /\ valid is s.
Proof. intros H. inversion H; subst. auto. Qed.

Lemma filt1 lo hi fl g L : List.length lo = L -> List.length hi = L ->
  exists f, construct_1d_filt (create_tensor lo fl g) (create_tensor hi fl g) = Ok f /\ filt_ok f 1 L (mayrev fl lo) (mayrev fl hi).
Proof.
  intros Hlo Hhi. eexists. split.
  - unfold construct_1d_filt. rewrite stack_ok; [reflexivity|]. constructor; [|constructor]. cbn. rewrite Hlo, Hhi. reflexivity.
  - split; [cbn; rewrite Hlo; reflexivity|].
    intros c js Hc Hjs. destruct js as [|j [|? ?]]; try (apply valid_length in Hjs; cbn in Hjs; lia).
    apply valid_cons_inv in Hjs as [Hj _].
    rewrite get_make; [|cbn; rewrite Hlo; valids].
    cbn [chanD bsels map taps nth removen firstn skipn app].
    destruct c as [|[|c]]; [| |cbn in Hc; lia]; cbn [nth bsel]; rewrite get_create by lia; ring.
Qed.

Lemma shp_outer t u : shp (outer t u) = [prodl (shp t); prodl (shp u)].
Proof. reflexivity. Qed.

Lemma prodl_create l fl (g : tag) : prodl (shp (create_tensor (K := K) l fl g)) = List.length l.
Proof. cbn [create_tensor shp]. rewrite !prodl_cons, prodl_nil. lia. Qed.

Lemma dat_create l fl (g : tag) : dat (create_tensor (K := K) l fl g) = mayrev fl l.
Proof. reflexivity. Qed.

Lemma get_outer_c l1 l2 fl g i j : i < List.length l1 -> j < List.length l2 ->
  get (outer (create_tensor l1 fl g) (create_tensor l2 fl g)) [i; j] = kmul (nth i (mayrev fl l1) kzero) (nth j (mayrev fl l2) kzero).
Proof.
  intros Hi Hj. unfold outer. rewrite get_make by (rewrite !prodl_create; valids).
  reflexivity.
Qed.

Lemma filt2 lo hi fl g L : List.length lo = L -> List.length hi = L ->
  exists f, construct_2d_filt (create_tensor lo fl g) (create_tensor hi fl g) = Ok f /\ filt_ok f 2 L (mayrev fl lo) (mayrev fl hi).
Proof.
  intros Hlo Hhi. eexists. split.
  - unfold construct_2d_filt. rewrite stack_ok.
    + cbn [rbind]. reflexivity.
    + repeat constructor; rewrite !shp_outer, !prodl_create, ?Hlo, ?Hhi; reflexivity.
  - split; [cbn [unsqueeze shp tmake insertn firstn skipn app]; rewrite shp_outer, !prodl_create, Hlo; reflexivity|].
    intros c js Hc Hjs. destruct js as [|i [|j [|? ?]]]; try (apply valid_length in Hjs; cbn in Hjs; lia).
    apply valid_cons_inv in Hjs as [Hi Hjs]. apply valid_cons_inv in Hjs as [Hj _].
    change (c :: 0 :: [i; j]) with ([c] ++ 0 :: [i; j]).
    rewrite get_unsqueeze; [|reflexivity|unfold rank; rewrite shp_make; unfold insertn; rewrite app_length; cbn; lia].
    cbn [app]. cbn in Hc.
    rewrite get_make; [|rewrite shp_outer, !prodl_create, Hlo; cbn; valids].
    cbn [nth removen firstn skipn app].
    destruct c as [|[|[|[|c]]]]; [| | | |lia]; cbn [nth chanD bsels map taps];
      rewrite get_outer_c by lia; cbn; ring.
Qed.

Lemma get_outer3 l1 l2 l3 fl g L i j k r : List.length l1 = L -> List.length l2 = L -> List.length l3 = L ->
  i < L -> j < L -> k < L ->
  reshape (outer (create_tensor l1 fl g) (outer (create_tensor l2 fl g) (create_tensor l3 fl g))) [L; L; L] = Ok r ->
  get r [i; j; k] = kmul (nth i (mayrev fl l1) kzero) (kmul (nth j (mayrev fl l2) kzero) (nth k (mayrev fl l3) kzero)).
Proof.
  intros H1 H2 H3 Hi Hj Hk Hr. unfold reshape in Hr. destruct (Nat.eqb _ _); [|discriminate]. injection Hr as <-.
  set (o2 := outer (create_tensor l2 fl g) (create_tensor l3 fl g)).
  assert (Hs2 : shp o2 = [L; L]) by (unfold o2; rewrite shp_outer, !prodl_create, H2, H3; reflexivity).
  assert (Hs : shp (outer (create_tensor l1 fl g) o2) = [L; L * L]).
  { rewrite shp_outer, prodl_create, H1, Hs2, !prodl_cons, prodl_nil. repeat f_equal. lia. }
  transitivity (get (outer (create_tensor l1 fl g) o2) [i; j * L + k]).
  { unfold get. cbn [shp dat]. rewrite Hs. f_equal. cbn [ravel]. rewrite !prodl_cons, prodl_nil. lia. }
  unfold outer at 1. rewrite get_make.
  2:{ rewrite prodl_create, H1, Hs2, !prodl_cons, prodl_nil. valids. }
  cbn [nth]. rewrite dat_create. f_equal.
  transitivity (get o2 [j; k]).
  { unfold get. rewrite Hs2. f_equal. cbn [ravel]. rewrite !prodl_cons, prodl_nil. lia. }
  unfold o2. rewrite get_outer_c by lia. reflexivity.
Qed.

Lemma filt3 lo hi fl g L : List.length lo = L -> List.length hi = L ->
  exists f, construct_3d_filt (create_tensor lo fl g) (create_tensor hi fl g) = Ok f /\ filt_ok f 3 L (mayrev fl lo) (mayrev fl hi).
Proof.
  intros Hlo Hhi. unfold construct_3d_filt.
  assert (Hd : dim_last (create_tensor (K := K) lo fl g) 1 = L) by exact Hlo.
  rewrite Hd.
  assert (Hre : forall a b c : list K, List.length a = L -> List.length b = L -> List.length c = L ->
    exists r : tensor K, reshape (outer (create_tensor a fl g) (outer (create_tensor b fl g) (create_tensor c fl g))) [L; L; L] = Ok r /\ shp r = [L; L; L]).
  { intros a b c Ha Hb Hc. eexists. split; [|shelve]. apply reshape_ok. rewrite !shp_outer, !prodl_cons, !prodl_nil, !prodl_create, Ha, Hb, Hc. lia.
    Unshelve. reflexivity. }
  destruct (Hre lo lo lo Hlo Hlo Hlo) as (r0 & E0 & S0). destruct (Hre lo lo hi Hlo Hlo Hhi) as (r1 & E1 & S1).
  destruct (Hre lo hi lo Hlo Hhi Hlo) as (r2 & E2 & S2). destruct (Hre lo hi hi Hlo Hhi Hhi) as (r3 & E3 & S3).
  destruct (Hre hi lo lo Hhi Hlo Hlo) as (r4 & E4 & S4). destruct (Hre hi lo hi Hhi Hlo Hhi) as (r5 & E5 & S5).
  destruct (Hre hi hi lo Hhi Hhi Hlo) as (r6 & E6 & S6). destruct (Hre hi hi hi Hhi Hhi Hhi) as (r7 & E7 & S7).
  rewrite E0. cbn [rbind]. rewrite E1. cbn [rbind]. rewrite E2. cbn [rbind]. rewrite E3. cbn [rbind].
  rewrite E4. cbn [rbind]. rewrite E5. cbn [rbind]. rewrite E6. cbn [rbind]. rewrite E7. cbn [rbind].
  rewrite stack_ok by (repeat constructor; congruence). cbn [rbind]. eexists. split; [reflexivity|].
  split; [cbn [unsqueeze shp tmake insertn firstn skipn app]; rewrite S0; reflexivity|].
  intros c js Hc Hjs. destruct js as [|i [|j [|k [|? ?]]]]; try (apply valid_length in Hjs; cbn in Hjs; lia).
  apply valid_cons_inv in Hjs as [Hi Hjs]. apply valid_cons_inv in Hjs as [Hj Hjs]. apply valid_cons_inv in Hjs as [Hk _].
  change (c :: 0 :: [i; j; k]) with ([c] ++ 0 :: [i; j; k]).
  rewrite get_unsqueeze; [|reflexivity|unfold rank; rewrite shp_make; unfold insertn; rewrite app_length; cbn; lia].
  cbn [app]. cbn in Hc.
  rewrite get_make; [|rewrite S0; cbn; valids].
  cbn [nth removen firstn skipn app].
  destruct c as [|[|[|[|[|[|[|[|c]]]]]]]]; [| | | | | | | |lia]; cbn [nth chanD bsels map taps];
  [rewrite (get_outer3 _ _ _ _ _ L _ _ _ _ Hlo Hlo Hlo Hi Hj Hk E0)|rewrite (get_outer3 _ _ _ _ _ L _ _ _ _ Hlo Hlo Hhi Hi Hj Hk E1)
  |rewrite (get_outer3 _ _ _ _ _ L _ _ _ _ Hlo Hhi Hlo Hi Hj Hk E2)|rewrite (get_outer3 _ _ _ _ _ L _ _ _ _ Hlo Hhi Hhi Hi Hj Hk E3)
  |rewrite (get_outer3 _ _ _ _ _ L _ _ _ _ Hhi Hlo Hlo Hi Hj Hk E4)|rewrite (get_outer3 _ _ _ _ _ L _ _ _ _ Hhi Hlo Hhi Hi Hj Hk E5)
  |rewrite (get_outer3 _ _ _ _ _ L _ _ _ _ Hhi Hhi Hlo Hi Hj Hk E6)|rewrite (get_outer3 _ _ _ _ _ L _ _ _ _ Hhi Hhi Hhi Hi Hj Hk E7)];
  cbn; ring.
Qed.

Lemma filt_nd D lo hi fl g L : 1 <= D <= 3 -> List.length lo = L -> List.length hi = L ->
  exists f, construct_nd_filt (create_tensor lo fl g) (create_tensor hi fl g) D = Ok f /\ filt_ok f D L (mayrev fl lo) (mayrev fl hi).
Proof.
  intros HD Hlo Hhi. assert (D = 1 \/ D = 2 \/ D = 3) as [->|[->| ->]] by lia; cbn [construct_nd_filt].
  - apply filt1; assumption. - apply filt2; assumption. - apply filt3; assumption.
Qed.

Lemma taps_rev (lo hi : list K) L bs js : List.length lo = L -> List.length hi = L ->
  (forall j, In j js -> j < L) ->
  taps (bsels (rev lo) (rev hi) bs) js = taps (bsels lo hi bs) (map (fun j => L - 1 - j) js).
Proof.
  intros Hlo Hhi. revert js. induction bs as [|b bs IH]; intros [|j js] Hj; cbn [bsels map taps]; try reflexivity.
  fold (bsels lo hi bs). fold (bsels (rev lo) (rev hi) bs). rewrite IH by (intros; apply Hj; right; assumption). f_equal.
  specialize (Hj j (or_introl eq_refl)).
  destruct b; cbn [bsel]; rewrite rev_nth by lia; f_equal; lia.
Qed.

Lemma bsels_len (lo hi : list K) L bs : List.length lo = L -> List.length hi = L ->
  Forall (fun f => List.length f = L) (bsels lo hi bs).
Proof. intros H1 H2. apply Forall_forall. intros f Hf. apply in_map_iff in Hf as (b & <- & _). destruct b; assumption. Qed.

Lemma chanD_length D c : 1 <= D <= 3 -> List.length (chanD D c) = D.
Proof. intros HD. assert (D = 1 \/ D = 2 \/ D = 3) as [->|[->| ->]] by lia; do 8 (destruct c as [|c]; [reflexivity|]); reflexivity. Qed.

(** * One analysis step on the original tensor *)
Definition adm_axes (m : mode) (L : nat) (nax : list nat) (s : list nat) : Prop :=
  Forall (admissible m L) (gather nax 0 s).

Lemma dwt_axes_pre (fs : list (list K)) m L nax x : wf x -> good_axes (rank x) nax -> 2 <= L ->
  List.length fs = List.length nax -> Forall (fun f => List.length f = L) fs -> adm_axes m L nax (shp x) ->
  pre_t nax (dwt_axes fs m nax x) = core_dwt fs m (pre_t nax x).
Proof.
  intros Hw Hg HL Hl Hf Ha. apply pre_along; auto.
  - apply dwt_op_ext; [rewrite gather_length; exact Hl|].
    eapply Forall_impl; [|exact Ha]. intros n. apply adm_extendable. exact HL.
  - rewrite map2_length, gather_length. lia.
Qed.

Lemma dwt_axes_sizes (fs : list (list K)) m L nax x : good_axes (rank x) nax ->
  List.length fs = List.length nax -> Forall (fun f => List.length f = L) fs ->
  gather nax 0 (shp (dwt_axes fs m nax x)) = map (dwt_len L) (gather nax 0 (shp x)).
Proof.
  intros Hg Hl Hf. unfold dwt_axes. rewrite gather_along; [|exact Hg|rewrite map2_length, gather_length; lia].
  apply dwt_sizes; [rewrite gather_length; exact Hl|exact Hf].
Qed.

Lemma dec_step D lo hi m L nax x filt g fl : fl = true -> 1 <= D <= 3 -> List.length nax = D -> wf x -> good_axes (rank x) nax ->
  List.length lo = L -> List.length hi = L -> 2 <= L -> Nat.even L = true -> adm_axes m L nax (shp x) ->
  construct_nd_filt (create_tensor lo fl g) (create_tensor hi fl g) D = Ok filt ->
  exists p res, pad_dispatch (unsqueeze (pre_t nax x) 1) (rev (map (fun n => get_pad n L) (gather nax 0 (shp x)))) (emode m) = Ok p /\
    conv_nd 2 1 p filt = Ok res /\ nth 1 (shp res) 0 = 2 ^ D /\
    split1 res 1 = map (fun c => unsqueeze (pre_t nax (dwt_axes (bsels lo hi (chanD D c)) m nax x)) 1) (seq 0 (2 ^ D)).
Proof.
  intros -> HD Hn Hw Hg Hlo Hhi HL He Ha Hc.
  destruct (filt_nd D lo hi true g L HD Hlo Hhi) as (f & Hf & Hf1 & Hf2).
  rewrite Hc in Hf. injection Hf as <-.
  assert (Hlg : List.length (gather nax 0 (shp x)) = D) by (rewrite gather_length; exact Hn).
  destruct (analysis_conv (fun c => bsels lo hi (chanD D c)) m (prodl (fsz nax (shp x))) (gather nax 0 (shp x)) (pre_t nax x) filt (2 ^ D) L)
    as (p & res & H1 & H2 & H3 & H4); auto.
  - apply pre_t_wf. exact Hg.
  - rewrite Hlg. exact HD.
  - rewrite Hlg. exact Hf1.
  - intros c Hcc. rewrite Hlg. split; [unfold bsels; rewrite map_length; apply chanD_length; exact HD|apply bsels_len; assumption].
  - intros c js Hcc Hjs. rewrite Hlg in Hjs. rewrite Hf2 by assumption. apply taps_rev; auto.
    apply valid_repeat in Hjs. apply Hjs.
  - exists p, res. repeat split; auto. rewrite H4. apply map_ext_in. intros c Hcc. apply in_seq in Hcc.
    f_equal. symmetry. apply (dwt_axes_pre _ m L); auto.
    + unfold bsels. rewrite map_length, chanD_length; auto.
    + apply bsels_len; assumption.
Qed.

(** * One synthesis step on the original tensors *)
Lemma idwt_op_ext L gs s : op_ext s (idwt_op (K := K) L gs).
Proof.
  intros X X' k Hk H. unfold idwt_op. apply sumI_ext. intros js Hjs. rewrite H by exact Hjs. reflexivity.
Qed.

Lemma idwt_post L C (gs : nat -> list (list K)) nax (ys : nat -> tensor K) outs r : 1 <= C ->
  (forall c, c < C -> wf (ys c) /\ shp (ys c) = shp (ys 0)) -> r = rank (ys 0) ->
  good_axes r nax -> List.length outs = List.length nax ->
  pre_t nax (idwt_axes L C gs nax ys outs)
  = core_syn (ttag (ys 0)) (prodl (fsz nax (shp (ys 0)))) C L gs (fun c => pre_t nax (ys c)) (gather nax 0 (shp (ys 0))) outs.
Proof.
  intros HC Hys -> Hg Ho. set (F := fsz nax (shp (ys 0))). set (s := gather nax 0 (shp (ys 0))).
  set (cs := core_syn _ _ _ _ _ _ _ _).
  assert (HFl : List.length F + List.length nax = rank (ys 0)).
  { unfold F. rewrite fsz_length by exact Hg. fold (rank (ys 0)). pose proof (good_len _ _ Hg). lia. }
  assert (Hg' : good_axes (List.length F + List.length nax) nax) by (rewrite HFl; exact Hg).
  assert (Hcs : shp cs = prodl F :: outs) by reflexivity.
  assert (Hwc : wf cs) by apply wf_make.
  assert (E : idwt_axes L C gs nax ys outs = post_t nax F cs).
  2:{ rewrite E. apply (pre_post nax F cs outs); auto. }
  assert (Hper : forall c, c < C -> post_t nax F (core (fun _ => outs) (idwt_op L (gs c)) (pre_t nax (ys c)))
     = along_axes (fun _ => outs) (idwt_op L (gs c)) nax (ys c)).
  { intros c Hc. destruct (Hys c Hc) as [Hw Hs]. unfold F. rewrite <- Hs. apply post_core; auto.
    - unfold rank. rewrite Hs. exact Hg.
    - rewrite Hs. apply idwt_op_ext. }
  assert (Hshape : shp (post_t nax F cs) = upds nax outs (shp (ys 0))).
  { specialize (Hper 0 ltac:(lia)). apply (f_equal (@shp K)) in Hper. rewrite shp_along in Hper. rewrite <- Hper.
    rewrite (post_t_shp _ _ _ _ _ Hcs). symmetry. apply (post_t_shp _ _ _ (prodl F)). reflexivity. }
  apply t_ext.
  - apply wf_make.
  - apply wf_make.
  - reflexivity.
  - rewrite Hshape. reflexivity.
  - intros idx Hv. unfold idwt_axes in Hv. rewrite shp_make in Hv.
    rewrite (get_post_t nax F cs outs); auto; [|rewrite Hshape; exact Hv].
    unfold idwt_axes. rewrite get_make by exact Hv. fold s.
    set (bi := ravel F _). set (ks := gather nax 0 idx).
    assert (Hin : forall d, In d nax -> d < List.length (shp (ys 0))) by (intros d Hd; apply Hg in Hd; exact Hd).
    assert (Hfv : valid (gather (front_of nax (List.length F + List.length nax)) 0 idx) F).
    { rewrite HFl. unfold F, fsz. fold (rank (ys 0)).
      rewrite <- (gather_upds_notin (front_of nax (rank (ys 0))) nax outs (shp (ys 0)) 0).
      - apply valid_gather_sub; [|exact Hv]. intros d Hd. rewrite upds_length. apply in_front in Hd. apply Hd.
      - intros d Hd. apply in_front in Hd. tauto. }
    assert (Hbi : bi < prodl F) by (apply ravel_lt; exact Hfv).
    assert (Hks : valid ks outs).
    { unfold ks. rewrite <- (gather_upds nax outs (shp (ys 0)) 0) at 1; auto; [|apply Hg].
      apply valid_gather_sub; [|exact Hv]. intros d Hd. rewrite upds_length. auto. }
    unfold cs, core_syn. rewrite get_make by (constructor; assumption). cbn [hd tl].
    apply sumf_ext. intros c Hc. destruct (Hys c Hc) as [Hw Hs].
    transitivity (get (along_axes (fun _ => outs) (idwt_op L (gs c)) nax (ys c)) idx).
    { unfold along_axes. rewrite get_make by (rewrite Hs; exact Hv). rewrite Hs. reflexivity. }
    rewrite <- Hper by exact Hc.
    rewrite (get_post_t nax F _ outs); auto using wf_core.
    2:{ cbn. rewrite Hs. reflexivity. }
    2:{ rewrite Hper by exact Hc. rewrite shp_along, Hs. exact Hv. }
    fold bi. fold ks. rewrite get_core.
    + cbn [pre_t shp tl]. rewrite Hs. reflexivity.
    + cbn. rewrite Hs. exact Hbi.
    + exact Hks.
Qed.

(** stack + transposed convolution + squeeze on preprocessed coefficients; the window gives idwt *)
Lemma rec_step D lo hi L nax (ys : nat -> tensor K) filt g : 1 <= D <= 3 -> List.length nax = D ->
  (forall c, c < 2 ^ D -> wf (ys c) /\ shp (ys c) = shp (ys 0)) -> good_axes (rank (ys 0)) nax ->
  List.length lo = L -> List.length hi = L -> 2 <= L ->
  Forall (fun k => 1 <= k) (gather nax 0 (shp (ys 0))) ->
  construct_nd_filt (create_tensor lo false g) (create_tensor hi false g) D = Ok filt ->
  exists st ct, stack 1 (map (fun c => pre_t nax (ys c)) (seq 0 (2 ^ D))) = Ok st /\
    conv_transpose_nd 2 1 0 1 st filt = Ok ct /\
    shp (squeeze ct 1) = prodl (fsz nax (shp (ys 0))) :: map (fun k => (k - 1) * 2 + L) (gather nax 0 (shp (ys 0))) /\
    wf (squeeze ct 1) /\
    forall outs, Forall2 (fun o k => o + (L - 2) <= (k - 1) * 2 + L) outs (gather nax 0 (shp (ys 0))) ->
      win (L - 2) outs (squeeze ct 1) = pre_t nax (idwt_axes L (2 ^ D) (fun c => bsels lo hi (chanD D c)) nax ys outs).
Proof.
  intros HD Hn Hys Hg Hlo Hhi HL Hk Hc.
  destruct (filt_nd D lo hi false g L HD Hlo Hhi) as (f & Hf & Hf1 & Hf2). rewrite Hc in Hf. injection Hf as <-.
  set (s := gather nax 0 (shp (ys 0))) in *.
  assert (Hls : List.length s = D) by (unfold s; rewrite gather_length; exact Hn).
  assert (HC : 1 <= 2 ^ D) by (pose proof (Nat.pow_nonzero 2 D); lia).
  destruct (synthesis_conv (ttag (ys 0)) (prodl (fsz nax (shp (ys 0)))) (2 ^ D) L (fun c => bsels lo hi (chanD D c))
     (fun c => pre_t nax (ys c)) s filt (map (fun c => pre_t nax (ys c)) (seq 0 (2 ^ D)))) as (st & ct & H1 & H2 & H3); auto.
  - intros c Hcc. cbn. destruct (Hys c Hcc) as [_ Hs]. rewrite Hs. reflexivity.
  - intros k. apply Forall_forall. exact Hk.
  - rewrite Hls. exact Hf1.
  - intros c Hcc. rewrite Hls. split; [unfold bsels; rewrite map_length; apply chanD_length; exact HD|apply bsels_len; assumption].
  - intros c js Hcc Hjs. rewrite Hls in Hjs. apply Hf2; assumption.
  - exists st, ct. repeat split; auto; try (rewrite H3; reflexivity).
    + rewrite H3. apply wf_make.
    + intros outs Ho. rewrite H3, win_syn by assumption. symmetry. apply (idwt_post L (2 ^ D) _ nax ys outs (rank (ys 0))); auto.
      apply F2_len in Ho. rewrite Ho. fold s. rewrite Hls. symmetry. exact Hn.
Qed.

(** * Perfect reconstruction of one level, on the original tensor *)
Lemma pre_t_inj nax x y : wf x -> wf y -> good_axes (rank x) nax -> rank x = rank y ->
  fsz nax (shp x) = fsz nax (shp y) -> pre_t nax x = pre_t nax y -> x = y.
Proof.
  intros Hx Hy Hg Hr Hf E. rewrite <- (post_pre nax x), <- (post_pre nax y); auto; [|rewrite <- Hr; exact Hg].
  rewrite E, Hf. reflexivity.
Qed.

Definition ext_to (m : mode) (nax : list nat) (outs : list nat) x : tensor K :=
  along_axes (fun _ => outs) (fun s X ks => ext_get m s X (map Z.of_nat ks)) nax x.

Lemma wf_idwt L C gs nax ys outs : wf (idwt_axes (K := K) L C gs nax ys outs).
Proof. apply wf_make. Qed.

Lemma idwt_dwt D dlo dhi rlo rhi L m nax x outs : cancel2 K -> pr_bank dlo dhi rlo rhi L ->
  1 <= D <= 3 -> List.length nax = D -> wf x -> good_axes (rank x) nax -> adm_axes m L nax (shp x) ->
  Forall2 (fun o n => o <= even_up n) outs (gather nax 0 (shp x)) ->
  idwt_axes L (2 ^ D) (fun c => bsels rlo rhi (chanD D c)) nax
    (fun c => dwt_axes (bsels dlo dhi (chanD D c)) m nax x) outs = ext_to m nax outs x.
Proof.
  intros Hc H HD Hn Hw Hg Ha Ho. pose proof (pr_len _ _ _ _ _ H) as (H1 & H2 & H3 & H4).
  pose proof (pr_two _ _ _ _ _ H) as HL.
  set (ys := fun c => dwt_axes (bsels dlo dhi (chanD D c)) m nax x).
  assert (Hbl : forall c, List.length (bsels dlo dhi (chanD D c)) = List.length nax)
    by (intros c; unfold bsels; rewrite map_length, chanD_length; auto).
  assert (Hshp : forall c, shp (ys c) = upds nax (map (dwt_len L) (gather nax 0 (shp x))) (shp x)).
  { intros c. unfold ys, dwt_axes. rewrite shp_along. rewrite (dwt_sizes _ L); auto; [rewrite gather_length; apply Hbl|apply bsels_len; assumption]. }
  assert (Hfs : fsz nax (shp (ys 0)) = fsz nax (shp x)) by (apply fsz_along; exact Hg).
  assert (Hrk : rank (ys 0) = rank x) by apply rank_along.
  assert (Hlo : List.length outs = List.length nax) by (apply F2_len in Ho; rewrite gather_length in Ho; exact Ho).
  apply (pre_t_inj nax); auto using wf_idwt.
  - apply wf_make.
  - unfold rank, idwt_axes. rewrite shp_make, upds_length. fold (rank (ys 0)). rewrite Hrk. exact Hg.
  - unfold rank, idwt_axes, ext_to. rewrite shp_make, shp_along, !upds_length. exact Hrk.
  - unfold ext_to. rewrite fsz_along by exact Hg. rewrite <- Hfs.
    unfold idwt_axes. rewrite shp_make. unfold fsz. rewrite upds_length. apply gather_upds_notin.
    intros d Hd. apply in_front in Hd. tauto.
  - rewrite (idwt_post L (2 ^ D) _ nax ys outs (rank x)); auto; [|pose proof (Nat.pow_nonzero 2 D); lia|].
    2:{ intros c Hcc. split; [apply wf_make|]. rewrite !Hshp. reflexivity. }
    rewrite Hfs. unfold ext_to.
    rewrite pre_along; auto.
    2:{ intros X X' k Hk HX. apply ext_get_ext; auto; [rewrite map_length; exact Hk|].
        eapply Forall_impl; [|exact Ha]. intros n. apply adm_extendable. exact HL. }
    rewrite Hshp. rewrite gather_upds; [|apply Hg|rewrite map_length, gather_length; reflexivity|intros d Hd; apply Hg in Hd; exact Hd].
    rewrite <- (syn_ana dlo dhi rlo rhi L (2 ^ D) (chanD D) m (prodl (fsz nax (shp x))) (gather nax 0 (shp x)) (pre_t nax x) outs); auto.
    + unfold core_syn. apply make_ext. intros idx Hv. apply sumf_ext. intros c Hcc.
      unfold ys. rewrite (dwt_axes_pre _ m L); auto. apply bsels_len; assumption.
    + rewrite gather_length, Hn. apply chan_ok_D. exact HD.
Qed.

Lemma ext_to_id m nax x : wf x -> good_axes (rank x) nax -> ext_to m nax (gather nax 0 (shp x)) x = x.
Proof.
  intros Hw Hg. apply t_ext; auto.
  - apply wf_make.
  - unfold ext_to. rewrite shp_along. apply upds_gather.
  - intros idx Hv. unfold ext_to, along_axes in *. rewrite shp_make in Hv. rewrite get_make by exact Hv.
    rewrite upds_gather in Hv. rewrite ext_get_id; [rewrite upds_gather; reflexivity|].
    apply valid_gather_sub; [|exact Hv]. intros d Hd. apply Hg in Hd. exact Hd.
Qed.

End Filt.
