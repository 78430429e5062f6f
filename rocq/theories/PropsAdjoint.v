(** C81, C82: under zero padding the synthesis with time-reversed filters is the adjoint of the analysis; for an
    orthogonal bank the padded transforms keep inner products and energy. *)
From Coq Require Import List Arith ZArith Lia Bool String Ring.
From Coq Require Import ZifyNat ZifyBool.
From Verif Require Import Base Sums Tensor TensorFacts Util Perm Plumb Accept Spec Conv1 PadFacts CoreFacts Analysis AnalysisInv PRKernel Synthesis Filters Wave1 Wave1Inv Rec1 Rec1Inv Lin Examples Props1 Conv2 Conv3 Spec2 WaveN RecN Props2 Sep SpecSep SepFacts SepRec SepRec2 SepRec3 PropsSep Unified RecNInv UnifiedRec PropsConst PropsLocal SpecMat PropsMat1 Boundary EnergyN PropsLocalRec Polyphase.
Import ListNotations.

Section Adj.
Context {K : CRing}.
Add Ring Kring : (cr_th K).
Local Open Scope K_scope.
Implicit Types (t u x y : tensor K) (w : wavelet K).

(** inner product over the positions of the first tensor (the second one may be larger) *)
Definition inner x y : K := sumI (shp x) (fun i => get x i * get y i).
Definition inners (xs ys : list (tensor K)) : K := sumL (combine xs ys) (fun p => inner (fst p) (snd p)).

(** ** one axis, one fibre *)
Lemma zget_rev (f : list K) z : zget (rev f) z = zget f (Z.of_nat (List.length f) - 1 - z).
Proof.
  destruct (Z_lt_dec z 0) as [H|H].
  - rewrite zget_neg by exact H. rewrite zget_big by lia. reflexivity.
  - destruct (Z_lt_dec z (Z.of_nat (List.length f))) as [H'|H'].
    + rewrite <- (Z2Nat.id z) at 1 by lia. rewrite zget_nat. rewrite nth_rev_zget by lia. f_equal. lia.
    + rewrite zget_big by (rewrite rev_length; lia). rewrite zget_neg by lia. reflexivity.
Qed.
Lemma ana_zero1 (f : list K) L n k (G : nat -> K) : List.length f = L ->
  sumf L (fun j => nth j f 0 * (if ((0 <=? 2 * Z.of_nat k + 1 - Z.of_nat j) && (2 * Z.of_nat k + 1 - Z.of_nat j <? Z.of_nat n))%Z then G (Z.to_nat (2 * Z.of_nat k + 1 - Z.of_nat j)) else 0))
  = sumf n (fun o => zget (rev f) (Z.of_nat o + Z.of_nat L - 2 - 2 * Z.of_nat k) * G o).
Proof.
  intros Hf. transitivity (sumf L (fun j => sumf n (fun o => nth j f 0 * (if Z.eqb (2 * Z.of_nat k + 1 - Z.of_nat o) (Z.of_nat j) then G o else 0)))).
  - apply sumf_ext. intros j Hj. rewrite sumf_mul_l. f_equal. set (z := (2 * Z.of_nat k + 1 - Z.of_nat j)%Z).
    destruct ((0 <=? z) && (z <? Z.of_nat n))%Z eqn:E.
    + rewrite (sumf_single n (Z.to_nat z)); [|lia|].
      * replace (2 * Z.of_nat k + 1 - Z.of_nat (Z.to_nat z) =? Z.of_nat j)%Z with true by lia. reflexivity.
      * intros o Ho Hne. replace (2 * Z.of_nat k + 1 - Z.of_nat o =? Z.of_nat j)%Z with false by lia. reflexivity.
    + symmetry. apply sumf_zero. intros o Ho. replace (2 * Z.of_nat k + 1 - Z.of_nat o =? Z.of_nat j)%Z with false by lia. reflexivity.
  - rewrite sumf_swap. apply sumf_ext. intros o Ho. rewrite zget_rev, Hf.
    replace (Z.of_nat L - 1 - (Z.of_nat o + Z.of_nat L - 2 - 2 * Z.of_nat k))%Z with (2 * Z.of_nat k + 1 - Z.of_nat o)%Z by lia.
    rewrite zget_expand, Hf, <- sumf_mul_r. apply sumf_ext. intros j Hj. destruct (Z.eqb _ _); ring.
Qed.
Lemma ana_zero L : forall (fs : list (list K)) s (X : list nat -> K) ks, Forall (fun f => List.length f = L) fs ->
  List.length s = List.length fs -> List.length ks = List.length fs ->
  dwt_op fs Mzero s X ks = sumI s (fun os => X os * tapsz (map (@rev K) fs) (map2 (fun o k => (Z.of_nat o + Z.of_nat L - 2 - 2 * Z.of_nat k)%Z) os ks)).
Proof.
  unfold dwt_op. induction fs as [|f fs IH]; intros [|n s] X [|k ks] HF H1 H2; try discriminate; [cbn; ring|].
  cbn [map sumI]. pose proof (Forall_inv HF) as Hf. cbn in Hf. rewrite Hf.
  transitivity (sumf L (fun j => nth j f 0 * (if ((0 <=? 2 * Z.of_nat k + 1 - Z.of_nat j) && (2 * Z.of_nat k + 1 - Z.of_nat j <? Z.of_nat n))%Z then
     (fun i => sumI s (fun os => X (i :: os) * tapsz (map (@rev K) fs) (map2 (fun o k => (Z.of_nat o + Z.of_nat L - 2 - 2 * Z.of_nat k)%Z) os ks))) (Z.to_nat (2 * Z.of_nat k + 1 - Z.of_nat j)) else 0))).
  - apply sumf_ext. intros j Hj. set (z := (2 * Z.of_nat k + 1 - Z.of_nat j)%Z). destruct ((0 <=? z) && (z <? Z.of_nat n))%Z eqn:E.
    + rewrite <- (IH s (fun is => X (Z.to_nat z :: is)) ks (Forall_inv_tail HF)) by (cbn in *; lia). rewrite <- sumI_mul_l. apply sumI_ext. intros js Hjs.
      cbn [taps map2]. fold z. unfold ext_get. cbn [ext_idxs ext_idx]. rewrite E. destruct (ext_idxs _ _ _); ring.
    + transitivity (sumI (map (@List.length K) fs) (fun _ => 0 : K)); [|rewrite sumI_zero by reflexivity; ring].
      apply sumI_ext. intros js Hjs. cbn [map2]. fold z. unfold ext_get. cbn [ext_idxs ext_idx]. rewrite E. ring.
  - etransitivity; [apply (ana_zero1 f L n k (fun i => sumI s (fun os => X (i :: os) * tapsz (map (@rev K) fs) (map2 (fun o k => (Z.of_nat o + Z.of_nat L - 2 - 2 * Z.of_nat k)%Z) os ks))) Hf)|]. cbv beta. apply sumf_ext. intros o Ho. rewrite <- sumI_mul_l. apply sumI_ext. intros os Hos. cbn [map2 tapsz]. ring.
Qed.

(** ** all fibres *)
Lemma inner_axes x y nax : good_axes (rank x) nax ->
  inner x y = sumI (upds nax (map (fun _ => 1%nat) nax) (shp x)) (fun idx => sumI (gather nax 0%nat (shp x)) (fun is => get x (upds nax is idx) * get y (upds nax is idx))).
Proof.
  intros [Hn Hin]. unfold inner. rewrite <- (upds_gather nax (shp x)) at 1. apply (sumI_axes nax _ (shp x) (fun i => get x i * get y i)); auto. apply gather_length.
Qed.
Lemma get_dwt_at L (fs : list (list K)) m nax u idx ks : good_axes (rank u) nax -> List.length fs = List.length nax -> Forall (fun f => List.length f = L) fs ->
  fib_ok nax idx (shp u) -> valid ks (map (dwt_len L) (gather nax 0%nat (shp u))) ->
  get (dwt_axes fs m nax u) (upds nax ks idx) = dwt_op fs m (gather nax 0%nat (shp u)) (fun is => get u (upds nax is idx)) ks.
Proof.
  intros Hg Hl HF Hi Hv. pose proof Hg as [Hnd Hin]. assert (Lk : List.length ks = List.length nax) by (rewrite (valid_length _ _ Hv), map_length; apply gather_length).
  unfold dwt_axes, along_axes. rewrite get_make.
  - rewrite gather_upds by (auto; rewrite (proj1 Hi); exact Hin). unfold dwt_op. apply sumI_ext. intros js Hjs. f_equal. unfold ext_get.
    destruct (ext_idxs _ _ _) as [is|] eqn:E; [|reflexivity]. f_equal. apply upds_upds; [exact Hnd|].
    assert (Hl2 : List.length is = List.length nax).
    { clear - E Hjs Hl Lk. assert (Hj : List.length js = List.length nax) by (apply F2_len in Hjs; rewrite Hjs, map_length; exact Hl). clear Hjs.
      assert (G : forall (s : list nat) zs l, ext_idxs m s zs = Some l -> List.length zs = List.length s -> List.length l = List.length s).
      { induction s as [|n s IH]; intros [|z zs] l; cbn; intros H Hz; try discriminate; [injection H as <-; reflexivity|].
        destruct (ext_idx m n z); [|discriminate]. destruct (ext_idxs m s zs) eqn:E'; [|discriminate]. injection H as <-. cbn. f_equal. eapply IH; eauto. }
      apply G in E; [rewrite E; apply gather_length|]. rewrite map2_length, gather_length. lia. }
    lia.
  - apply fib_valid; [exact Hnd|rewrite upds_length; exact Hin|apply fib_ok_shape; exact Hi|].
    replace (map2 (fun f n => dwt_len (List.length f) n) fs (gather nax 0%nat (shp u))) with (map (dwt_len L) (gather nax 0%nat (shp u))) by (symmetry; apply dwt_sizes; [rewrite gather_length; exact Hl|exact HF]).
    rewrite gather_upds; auto. rewrite map_length. apply gather_length.
Qed.
Lemma step_adjoint L C (afs : nat -> list (list K)) nax u (ys : nat -> tensor K) outs : (1 <= C)%nat -> good_axes (rank u) nax ->
  (forall c, (c < C)%nat -> List.length (afs c) = List.length nax /\ Forall (fun f => List.length f = L) (afs c)) ->
  (forall c, (c < C)%nat -> shp (ys c) = upds nax (map (dwt_len L) (gather nax 0%nat (shp u))) (shp u)) ->
  Forall2 le (gather nax 0%nat (shp u)) outs ->
  sumf C (fun c => inner (dwt_axes (afs c) Mzero nax u) (ys c)) = inner u (idwt_axes L C (fun c => map (@rev K) (afs c)) nax ys outs).
Proof.
  intros HC Hg Ha Hy Ho. pose proof Hg as [Hnd Hin]. set (s := gather nax 0%nat (shp u)) in *.
  assert (Ls : List.length s = List.length nax) by apply gather_length.
  rewrite (inner_axes u _ nax Hg). fold s.
  transitivity (sumf C (fun c => sumI (upds nax (map (fun _ => 1%nat) nax) (shp u)) (fun idx => sumI (map (dwt_len L) s) (fun ks =>
     sumI s (fun os => get u (upds nax os idx) * (get (ys c) (upds nax ks idx) * tapsz (map (@rev K) (afs c)) (map2 (fun o k => (Z.of_nat o + Z.of_nat L - 2 - 2 * Z.of_nat k)%Z) os ks))))))).
  { apply sumf_ext. intros c Hc. destruct (Ha c Hc) as [A1 A2].
    assert (Hg' : good_axes (rank (dwt_axes (afs c) Mzero nax u)) nax) by (unfold dwt_axes; rewrite rank_along; exact Hg).
    rewrite (inner_axes _ _ nax Hg'). rewrite (dwt_axes_sizes (afs c) Mzero L nax u Hg A1 A2). fold s.
    unfold dwt_axes at 1. rewrite shp_along. rewrite upds_upds by (auto; rewrite map_length, map2_length, gather_length; lia).
    apply sumI_ext. intros idx Hidx. apply sumI_ext. intros ks Hks.
    assert (Hf : fib_ok nax idx (shp u)) by (eapply fib_valid_out; [exact Hg| |exact Hidx]; apply map_length).
    rewrite (get_dwt_at L) by auto. fold s. rewrite (ana_zero L) by (auto; try (rewrite Ls; auto); apply F2_len in Hks; rewrite Hks, map_length; lia).
    transitivity (get (ys c) (upds nax ks idx) * sumI s (fun os => get u (upds nax os idx) * tapsz (map (@rev K) (afs c)) (map2 (fun o k => (Z.of_nat o + Z.of_nat L - 2 - 2 * Z.of_nat k)%Z) os ks))); [ring|].
    rewrite <- sumI_mul_l. apply sumI_ext. intros os Hos. ring. }
  rewrite <- sumI_sumf_swap. apply sumI_ext. intros idx Hidx.
  assert (Hf : fib_ok nax idx (shp u)) by (eapply fib_valid_out; [exact Hg| |exact Hidx]; apply map_length).
  transitivity (sumI s (fun os => get u (upds nax os idx) * sumf C (fun c => sumI (map (dwt_len L) s) (fun ks => get (ys c) (upds nax ks idx) * tapsz (map (@rev K) (afs c)) (map2 (fun o k => (Z.of_nat o + Z.of_nat L - 2 - 2 * Z.of_nat k)%Z) os ks))))).
  { rewrite (sumf_ext C _ (fun c => sumI s (fun os => get u (upds nax os idx) * sumI (map (dwt_len L) s) (fun ks => get (ys c) (upds nax ks idx) * tapsz (map (@rev K) (afs c)) (map2 (fun o k => (Z.of_nat o + Z.of_nat L - 2 - 2 * Z.of_nat k)%Z) os ks))))).
    - rewrite <- sumI_sumf_swap. apply sumI_ext. intros os _. rewrite sumf_mul_l. reflexivity.
    - intros c _. rewrite sumI_swap. apply sumI_ext. intros os _. rewrite sumI_mul_l. reflexivity. }
  apply sumI_ext. intros os Hos. f_equal.
  assert (Lo : List.length os = List.length nax) by (apply F2_len in Hos; rewrite Hos; exact Ls).
  assert (Lout : List.length outs = List.length nax) by (rewrite <- (F2_len _ _ _ Ho); exact Ls).
  assert (E0 : gather nax 0%nat (shp (ys 0%nat)) = map (dwt_len L) s) by (rewrite Hy by lia; apply gather_upds; auto; rewrite map_length; exact Ls).
  unfold idwt_axes. rewrite get_make.
  - apply sumf_ext. intros c Hc. rewrite E0. rewrite gather_upds by (auto; rewrite (proj1 Hf); exact Hin). unfold idwt_op. apply sumI_ext. intros ks Hks. f_equal. f_equal. symmetry. apply upds_upds; [exact Hnd|].
    apply F2_len in Hks. rewrite Hks, map_length. lia.
  - rewrite (Hy 0%nat) by lia. rewrite upds_upds by (auto; rewrite map_length; lia). apply fib_valid; [exact Hnd|rewrite upds_length; exact Hin|apply fib_ok_shape; exact Hf|].
    rewrite gather_upds by auto. clear - Hos Ho. revert os Hos. induction Ho as [|n o s outs H Ho IH]; intros os Hos; inversion Hos; subst; constructor; auto; [lia|]. apply IH. assumption.
Qed.

Lemma shp_dwt L (fs : list (list K)) m nax u : List.length fs = List.length nax -> Forall (fun f => List.length f = L) fs ->
  shp (dwt_axes fs m nax u) = upds nax (map (dwt_len L) (gather nax 0%nat (shp u))) (shp u).
Proof. intros Hl HF. unfold dwt_axes. rewrite shp_along. f_equal. apply dwt_sizes; [rewrite gather_length; exact Hl|exact HF]. Qed.
Lemma sum_combine {A B : Type} (f : A -> B -> K) : forall (l : list A) (l' : list B) d d', List.length l = List.length l' ->
  sumL (combine l l') (fun p => f (fst p) (snd p)) = sumf (List.length l) (fun c => f (nth c l d) (nth c l' d')).
Proof.
  induction l as [|a l IH]; intros [|b l'] d d' H; try discriminate; [reflexivity|]. cbn [combine sumL List.length fst snd]. rewrite sumf_S_first. f_equal. cbn [nth]. apply IH. cbn in H. lia.
Qed.

(** ** all levels *)
(** every position of x is a position of y *)
Definition covers x y : Prop := forall idx, valid idx (shp x) -> valid idx (shp y).
Section Levels.
Variables (lo : list K) (dfs : list (list (list K))) (L : nat) (nax : list nat) (x : tensor K).
Hypothesis Hlo : List.length lo = L.
Hypothesis HL : (2 <= L)%nat.
Hypothesis He : Nat.even L = true.
Hypothesis Hg : good_axes (rank x) nax.
Hypothesis Hd : Forall (fun fs => List.length fs = List.length nax /\ Forall (fun f => List.length f = L) fs) dfs.
Hypothesis Hd0 : (0 < List.length dfs)%nat.
Let ap j := approx lo Mzero nax j x.

Fixpoint lmatch (J : nat) (levels : list (list (tensor K))) : Prop :=
  match levels, J with
  | [], O => True
  | ds :: rest, S J' => List.length ds = List.length dfs /\ Forall (fun d => shp d = shp (ap J)) ds /\ lmatch J' rest
  | _, _ => False
  end.
Fixpoint lvsum (J : nat) (levels : list (list (tensor K))) : K :=
  match levels with
  | [] => 0
  | ds :: rest => sumL (combine dfs ds) (fun p => inner (detail lo (fst p) Mzero nax J x) (snd p)) + lvsum (J - 1) rest
  end.
Lemma shp_ap j : shp (ap (S j)) = upds nax (map (dwt_len L) (gather nax 0%nat (shp (ap j)))) (shp (ap j)).
Proof. unfold ap. rewrite approx_S. apply shp_dwt; [apply repeat_length|apply Forall_forall; intros f Hf; rewrite (repeat_spec _ _ _ Hf); exact Hlo]. Qed.
Lemma adj_levels : forall levels J (A : tensor K), lmatch J levels -> (levels <> [] -> shp A = shp (ap J)) ->
  let y := recN_spec L (map (map (@rev K)) (repeat lo (List.length nax) :: dfs)) nax A levels in
  inner (ap J) A + lvsum J levels = inner x y /\ (covers x A \/ levels <> [] -> covers x y).
Proof using Hlo HL He Hg Hd Hd0.
  cbv zeta. induction levels as [|ds rest IH]; intros J A Hm HA.
  - destruct J; [|destruct Hm]. cbn [lvsum recN_spec]. split; [unfold ap, approx; cbn; ring|]. intros [H|H]; [exact H|contradiction].
  - destruct J as [|J]; [destruct Hm|]. destruct Hm as (Hlen & Hsh & Hm). cbn [lvsum recN_spec]. specialize (HA ltac:(discriminate)).
    set (outs := recN_outs L nax A rest). set (afs := fun c => nth c (repeat lo (List.length nax) :: dfs) []).
    assert (Hgj : good_axes (rank (ap J)) nax) by (unfold ap; rewrite approx_rank; exact Hg). pose proof Hgj as [Hnd Hin].
    assert (Eg : gather nax 0%nat (shp (ap (S J))) = map (dwt_len L) (gather nax 0%nat (shp (ap J)))) by (rewrite shp_ap; apply gather_upds; auto; rewrite map_length; apply gather_length).
    assert (Eo : (rest = [] /\ outs = map (fun n => 2 * dwt_len L n + 2 - L)%nat (gather nax 0%nat (shp (ap J)))) \/ (rest <> [] /\ outs = gather nax 0%nat (shp (ap J)))).
    { unfold outs, recN_outs. destruct rest as [|e r].
      - left. split; [reflexivity|]. rewrite HA, Eg, map_map. reflexivity.
      - right. split; [discriminate|]. destruct J as [|J]; [destruct Hm|]. destruct Hm as (M1 & M2 & _). destruct e as [|h e]; [cbn in M1; lia|]. rewrite (Forall_inv M2). reflexivity. }
    assert (Hle : Forall2 le (gather nax 0%nat (shp (ap J))) outs).
    { destruct Eo as [[_ ->]|[_ ->]].
      - apply Nat.even_spec in He as [h Hh]. generalize (gather nax 0%nat (shp (ap J))); intros l0; induction l0 as [|n l IHl]; cbn [map]; constructor; [|exact IHl]. unfold dwt_len. pose proof (Nat.div_mod (n + L - 1) 2 ltac:(lia)). pose proof (Nat.mod_upper_bound (n + L - 1) 2 ltac:(lia)). lia.
      - generalize (gather nax 0%nat (shp (ap J))); intros l0; induction l0; constructor; auto. }
    assert (Hafs : forall c, (c < S (List.length dfs))%nat -> List.length (afs c) = List.length nax /\ Forall (fun f => List.length f = L) (afs c)).
    { intros c Hc. unfold afs. destruct c as [|c]; cbn [nth]; [split; [apply repeat_length|apply Forall_forall; intros f Hf; rewrite (repeat_spec _ _ _ Hf); exact Hlo]|].
      rewrite Forall_forall in Hd. apply Hd. apply nth_In. lia. }
    assert (Hys : forall c, (c < S (List.length dfs))%nat -> shp (nth c (A :: ds) A) = upds nax (map (dwt_len L) (gather nax 0%nat (shp (ap J)))) (shp (ap J))).
    { intros c Hc. rewrite <- shp_ap. destruct c as [|c]; cbn [nth]; [exact HA|]. rewrite Forall_forall in Hsh. apply Hsh, nth_In. lia. }
    pose proof (step_adjoint L (S (List.length dfs)) afs nax (ap J) (fun c => nth c (A :: ds) A) outs ltac:(lia) Hgj Hafs Hys Hle) as St.
    set (fsr := map (map (@rev K)) (repeat lo (List.length nax) :: dfs)).
    assert (E : idwtN L fsr nax A ds outs = idwt_axes L (S (List.length dfs)) (fun c => map (@rev K) (afs c)) nax (fun c => nth c (A :: ds) A) outs).
    { unfold idwtN. replace (List.length fsr) with (S (List.length dfs)) by (unfold fsr; cbn; rewrite map_length; reflexivity).
      apply idwt_axes_ext; [lia| |auto]. intros c Hc. unfold afs, fsr. apply (map_nth (map (@rev K)) _ ([] : list (list K))). }
    rewrite E. set (A' := idwt_axes L (S (List.length dfs)) (fun c => map (@rev K) (afs c)) nax (fun c => nth c (A :: ds) A) outs) in *.
    assert (HA' : rest <> [] -> shp A' = shp (ap J)).
    { intros Hr. destruct Eo as [[? _]|[_ Eo]]; [contradiction|]. unfold A', idwt_axes. rewrite shp_make. cbn [nth]. rewrite Eo, HA, shp_ap.
      rewrite upds_upds by (auto; rewrite map_length; reflexivity). apply upds_gather. }
    destruct (IH J A' Hm HA') as [IH1 IH2]. fold fsr in IH1, IH2. split.
    { rewrite <- IH1. rewrite <- St. rewrite sumf_S_first. rewrite Nat.sub_succ, Nat.sub_0_r. rewrite (sum_combine (fun fs d => inner (detail lo fs Mzero nax (S J) x) d) dfs ds [] A) by lia.
      unfold ap at 1. rewrite approx_S. fold (ap J). unfold afs. cbn [nth]. unfold detail. rewrite Nat.sub_succ, Nat.sub_0_r. fold (ap J). ring. }
    + intros _. apply IH2. destruct Eo as [[Er Eo]|[Hr _]]; [left|right; exact Hr]. subst rest. destruct J; [|destruct Hm]. intros idx Hv.
      unfold A', idwt_axes. rewrite shp_make. cbn [nth]. rewrite HA, shp_ap, upds_upds by (auto; rewrite map_length, <- (F2_len _ _ _ Hle); reflexivity).
      change (ap 0) with x in *. rewrite <- (upds_gather nax idx). apply valid_upds; [exact Hv| |rewrite gather_length; reflexivity].
      assert (Hv' : valid (gather nax 0%nat idx) (gather nax 0%nat (shp x))) by (apply valid_gather_sub; [exact Hin|exact Hv]).
      clear - Hv' Hle. clearbody outs. revert Hv'. generalize (gather nax 0%nat idx). intros l Hv. revert outs Hle. induction Hv as [|i n l s Hi Hv IH]; intros outs Hle; inversion Hle; subst; constructor; [lia|apply IH; assumption].
Qed.
End Levels.
End Adj.

(** * The functions *)
Section User.
Context {K : CRing}.
Add Ring Kring2 : (cr_th K).
Local Open Scope K_scope.
Implicit Types (t u x y : tensor K) (w : wavelet K).

(** the synthesis function belonging to an analysis function, called on a container of that function *)
Definition inverse (T : transform) (c : pycoeffs K) w : result (tensor K) :=
  match T with
  | Twavedec a => waverec (pc_items c) w (AxInt a)
  | Twavedec2 h => waverec2 c w h
  | Twavedec3 h => waverec3 c w h
  | Tfswavedec2 h => fswaverec2 c w h
  | Tfswavedec3 h => fswaverec3 c w h
  end.
(** c' is a coefficient container laid out like c: same containers and keys, tensors of the same shape, dtype
    and device, arbitrary numbers *)
Definition laid_out_like (c c' : pycoeffs K) : Prop :=
  pc_is_list c' = pc_is_list c /\
  Forall2 (pv_rel (fun t t' => wf t' /\ shp t' = shp t /\ ttag t' = ttag t)) (pc_items c) (pc_items c').

Definition tdfs (T : transform) (lo hi : list K) : list (list (list K)) :=
  match T with
  | Twavedec _ => [[hi]]
  | Twavedec2 _ => [[hi; lo]; [lo; hi]; [hi; hi]]
  | Twavedec3 _ => map (key_filters lo hi) keys3
  | Tfswavedec2 _ => map (key_filters lo hi) (detail_keys 2)
  | Tfswavedec3 _ => map (key_filters lo hi) (detail_keys 3)
  end.
Definition tlevel (T : transform) (ds : list (tensor K)) : pyval K :=
  match T with
  | Twavedec _ => match ds with [d] => PT d | _ => POther end
  | Twavedec2 _ => PTup ds
  | Twavedec3 _ => PDict (combine keys3 ds)
  | Tfswavedec2 _ => PDict (combine (detail_keys 2) ds)
  | Tfswavedec3 _ => PDict (combine (detail_keys 3) ds)
  end.
Definition same_kind t t' : Prop := wf t' /\ shp t' = shp t /\ ttag t' = ttag t.

Lemma dict_like (f : string -> tensor K) : forall keys (d : list (string * tensor K)),
  Forall2 (fun e e' => fst e = fst e' /\ same_kind (snd e) (snd e')) (map (fun k => (k, f k)) keys) d ->
  d = combine keys (map snd d) /\ Forall2 same_kind (map f keys) (map snd d).
Proof.
  induction keys as [|k keys IH]; intros d H; inversion H as [|? [k' t] ? d' [H1 H2] H3]; subst; [split; [reflexivity|constructor]|].
  cbn in H1, H2. subst k'. destruct (IH d' H3) as [E F]. split; [cbn; rewrite <- E; reflexivity|constructor; assumption].
Qed.
Lemma level_like T lo hi m nax j x v : List.length nax = tdim T -> pv_rel same_kind (tdetails T lo hi m nax j x) v ->
  exists ds, v = tlevel T ds /\ Forall2 same_kind (map (fun fs => detail lo fs m nax j x) (tdfs T lo hi)) ds.
Proof.
  intros Hn H. destruct T as [a|h|h|h|h]; cbn [tdetails tdfs tlevel] in *.
  - inversion H as [t t' Ht| |]; subst. exists [t']. split; [reflexivity|]. repeat constructor; apply Ht.
  - inversion H as [|l l' Hl|]; subst. exists l'. split; [reflexivity|exact Hl].
  - inversion H as [| |d d' Hd]; subst. destruct (dict_like (fun k => detail lo (key_filters lo hi k) m nax j x) keys3 d' Hd) as [E F]. exists (map snd d'). split; [congruence|]. rewrite map_map. exact F.
  - unfold detailsN in H. rewrite Hn in H. cbn [tdim] in H. inversion H as [| |d d' Hd]; subst. destruct (dict_like (fun k => detail lo (key_filters lo hi k) m nax j x) (detail_keys 2) d' Hd) as [E F]. exists (map snd d'). split; [congruence|]. rewrite map_map. exact F.
  - unfold detailsN in H. rewrite Hn in H. cbn [tdim] in H. inversion H as [| |d d' Hd]; subst. destruct (dict_like (fun k => detail lo (key_filters lo hi k) m nax j x) (detail_keys 3) d' Hd) as [E F]. exists (map snd d'). split; [congruence|]. rewrite map_map. exact F.
Qed.
Lemma levels_like T lo hi m nax x : List.length nax = tdim T -> forall js vs, Forall2 (pv_rel same_kind) (map (fun j => tdetails T lo hi m nax j x) js) vs ->
  exists levels, vs = map (tlevel T) levels /\ Forall2 (fun j ds => Forall2 same_kind (map (fun fs => detail lo fs m nax j x) (tdfs T lo hi)) ds) js levels.
Proof.
  intros Hn. induction js as [|j js IH]; intros vs H; inversion H as [|? v ? vs' Hv Hvs]; subst; [exists []; split; [reflexivity|constructor]|].
  destruct (level_like T lo hi m nax j x v Hn Hv) as (ds & -> & Hds). destruct (IH vs' Hvs) as (levels & -> & HF). exists (ds :: levels). split; [reflexivity|constructor; assumption].
Qed.
Lemma tensors_level T lo hi m nax j x : List.length nax = tdim T -> pv_tensors (tdetails T lo hi m nax j x) = map (fun fs => detail lo fs m nax j x) (tdfs T lo hi).
Proof. intros Hn. destruct T; cbn [tdetails tdfs pv_tensors]; unfold detailsN, details2, details3; rewrite ?Hn; cbn [tdim pv_tensors]; rewrite ?map_map; reflexivity. Qed.
Lemma tensors_tlevel T (ds : list (tensor K)) lo hi : List.length ds = List.length (tdfs T lo hi) -> pv_tensors (tlevel T ds) = ds.
Proof.
  intros H. destruct T; cbn [tlevel tdfs pv_tensors] in *; rewrite ?map_length in H.
  - destruct ds as [|d [|]]; try discriminate. reflexivity.
  - reflexivity.
  - apply map_snd_combine. congruence.
  - apply map_snd_combine. congruence.
  - apply map_snd_combine. congruence.
Qed.
Lemma F2_length {A B} (R : A -> B -> Prop) l l' : Forall2 R l l' -> List.length l = List.length l'.
Proof. apply F2_len. Qed.
Lemma tdfs_ok T (lo hi : list K) L (nax : list nat) : List.length nax = tdim T -> List.length lo = L -> List.length hi = L ->
  Forall (fun fs => List.length fs = List.length nax /\ Forall (fun f => List.length f = L) fs) (tdfs T lo hi) /\ (0 < List.length (tdfs T lo hi))%nat.
Proof.
  intros Hn H1 H2. rewrite Hn. destruct T; cbn; repeat (split || constructor); auto; lia.
Qed.
Lemma shp_detail (lo : list K) fs m L nax j x : good_axes (rank x) nax -> List.length lo = L -> List.length fs = List.length nax -> Forall (fun f => List.length f = L) fs -> (1 <= j)%nat ->
  shp (detail lo fs m nax j x) = shp (approx lo m nax j x).
Proof.
  intros Hg Hlo H1 H2 Hj. destruct j as [|j]; [lia|]. unfold detail. rewrite Nat.sub_succ, Nat.sub_0_r, approx_S.
  rewrite (shp_dwt L fs) by auto. rewrite (shp_dwt L (repeat lo (List.length nax))); [reflexivity|apply repeat_length|].
  apply Forall_forall. intros f Hf. rewrite (repeat_spec _ _ _ Hf). exact Hlo.
Qed.
Definition lev_like (T : transform) (lo hi : list K) (m : mode) nax x (js : list nat) levels : Prop :=
  Forall2 (fun j ds => Forall2 same_kind (map (fun fs => detail lo fs m nax j x) (tdfs T lo hi)) ds) js levels.
Lemma lev_shapes T (lo hi : list K) m L nax x : List.length nax = tdim T -> good_axes (rank x) nax -> wf x -> List.length lo = L -> List.length hi = L ->
  forall js levels, Forall (fun j => 1 <= j)%nat js -> lev_like T lo hi m nax x js levels ->
  Forall2 (fun j ds => List.length ds = List.length (tdfs T lo hi) /\ Forall (fun d => wf d /\ shp d = shp (approx lo m nax j x) /\ ttag d = ttag x) ds) js levels.
Proof.
  intros Hn Hg Hw H1 H2 js levels Hj H. induction H as [|j ds js levels Hds H IH]; constructor; [|apply IH; exact (Forall_inv_tail Hj)].
  pose proof (Forall_inv Hj) as Hj1. cbv beta in Hj1. split; [rewrite <- (F2_len _ _ _ Hds), map_length; reflexivity|].
  destruct (tdfs_ok T lo hi L nax Hn H1 H2) as [Hok _]. clear - Hds Hok Hg H1 H2 Hj1 Hw. revert ds Hds. induction Hok as [|fs dfs [F1 F2] Hok IH]; intros ds Hds; inversion Hds as [|? d ? ds' (K1 & K2 & K3) Hds']; subst; constructor; [|apply IH; exact Hds'].
  split; [exact K1|]. rewrite K2, K3. split; [eapply shp_detail; eauto|]. unfold detail. cbn [dwt_axes along_axes ttag tmake]. apply approx_ttag.
Qed.
Lemma lev_fits T (lo hi : list K) m L nax J x A levels : List.length nax = tdim T -> good_axes (rank x) nax -> wf x -> List.length lo = L -> List.length hi = L ->
  (2 <= L)%nat -> Nat.even L = true -> levels_all m L J (gather nax 0%nat (shp x)) -> shp A = shp (approx lo m nax J x) -> ttag A = ttag x ->
  lev_like T lo hi m nax x (rev (seq 1 J)) levels -> coeffs_fit (List.length (tdfs T lo hi)) nax L A levels.
Proof.
  intros Hn Hg Hw H1 H2 HL He Hlev HA HtA Hlike.
  pose proof (lev_shapes T lo hi m L nax x Hn Hg Hw H1 H2 (rev (seq 1 J)) levels) as Hsh.
  assert (Hjs : Forall (fun j => 1 <= j)%nat (rev (seq 1 J))) by (apply Forall_forall; intros j Hj; apply in_rev, in_seq in Hj; lia).
  specialize (Hsh Hjs Hlike).
  assert (Hpos : (0 < List.length (tdfs T lo hi))%nat) by apply (tdfs_ok T lo hi L nax Hn H1 H2).
  assert (HrA : rank A = rank x) by (unfold rank at 1; rewrite HA; apply approx_rank).
  split.
  - clear - Hsh HA HtA HrA Hg. induction Hsh as [|j ds js levels [F1 F2] Hsh IH]; constructor; [|exact IH]. split; [split; [exact F1|split]|].
    + eapply Forall_impl; [|exact F2]. intros d (D1 & D2 & D3). split; [exact D1|]. split; [unfold rank at 1; rewrite D2, HrA; apply approx_rank|].
      rewrite D2, HA, !approx_fsz by exact Hg. reflexivity.
    + intros d d' Hd Hd'. rewrite Forall_forall in F2. destruct (F2 d Hd) as (_ & E & _). destruct (F2 d' Hd') as (_ & E' & _). congruence.
    + eapply Forall_impl; [|exact F2]. intros d (D1 & D2 & D3). congruence.
  - assert (Hd1 : (1 <= tdim T <= 3)%nat) by (destruct T; cbn; lia).
    destruct (spec_fits (tdim T) lo hi m L nax J x Hd1 Hn Hw Hg H1 H2 HL He Hlev) as [_ Hsz].
    rewrite HA. replace (map (lsizes nax) levels) with (map (lsizes nax) (dlevels (tdim T) lo hi m nax J x)); [exact Hsz|].
    unfold dlevels. rewrite map_map. clear - Hsh Hpos Hd1 Hn Hw Hg H1 H2 Hjs. induction Hsh as [|j ds js levels [F1 F2] Hsh IH]; [reflexivity|]. cbn [map].
    f_equal; [|apply IH; exact (Forall_inv_tail Hjs)]. destruct (dlevel_sizes (tdim T) lo hi m L nax j x Hd1 Hn Hw Hg H1 H2 (Forall_inv Hjs)) as [E _]. rewrite E.
    destruct ds as [|d ds]; [cbn in F1; lia|]. cbn [lsizes]. destruct (Forall_inv F2) as (_ & -> & _). symmetry. apply (approx_sizes lo m L nax j x Hg H1).
Qed.
Lemma lev_lmatch T (lo hi : list K) nax x J : forall levels,
  Forall2 (fun j ds => List.length ds = List.length (tdfs T lo hi) /\ Forall (fun d => wf d /\ shp d = shp (approx lo Mzero nax j x) /\ ttag d = ttag x) ds) (rev (seq 1 J)) levels ->
  lmatch lo (tdfs T lo hi) nax x J levels.
Proof.
  induction J as [|J IH]; intros levels H; [inversion H; exact I|]. rewrite seq_S, rev_app_distr in H. cbn [rev app] in H. change (1 + J)%nat with (S J) in H.
  inversion H as [|? ds ? rest [F1 F2] H']; subst. cbn [lmatch]. split; [exact F1|]. split; [|apply IH; exact H']. eapply Forall_impl; [|exact F2]. intros d (_ & D & _). exact D.
Qed.
Lemma combine_app {A B} : forall (l1 : list A) (l1' : list B) l2 l2', List.length l1 = List.length l1' -> combine (l1 ++ l2) (l1' ++ l2') = combine l1 l1' ++ combine l2 l2'.
Proof. induction l1 as [|a l1 IH]; intros [|b l1'] l2 l2' H; try discriminate; [reflexivity|]. cbn. f_equal. apply IH. cbn in H. lia. Qed.
Lemma sumL_app {A} (l l' : list A) (f : A -> K) : sumL (l ++ l') f = sumL l f + sumL l' f.
Proof. induction l as [|a l IH]; cbn [app sumL]; [ring|]. rewrite IH. ring. Qed.
Lemma inners_app (l1 l1' l2 l2' : list (tensor K)) : List.length l1 = List.length l1' -> inners (l1 ++ l2) (l1' ++ l2') = inners l1 l1' + inners l2 l2'.
Proof. intros H. unfold inners. rewrite combine_app by exact H. apply sumL_app. Qed.
Lemma inners_map (g : list (list K) -> tensor K) dfs : forall ds, inners (map g dfs) ds = sumL (combine dfs ds) (fun p => inner (g (fst p)) (snd p)).
Proof. unfold inners. induction dfs as [|f dfs IH]; intros [|d ds]; try reflexivity. cbn [map combine sumL fst snd]. rewrite IH. reflexivity. Qed.
Lemma lev_inners T (lo hi : list K) nax x J : List.length nax = tdim T -> forall levels, lmatch lo (tdfs T lo hi) nax x J levels ->
  inners (flat_map pv_tensors (map (fun j => tdetails T lo hi Mzero nax j x) (rev (seq 1 J)))) (flat_map pv_tensors (map (tlevel T) levels)) = lvsum lo (tdfs T lo hi) nax x J levels.
Proof.
  intros Hn. induction J as [|J IH]; intros levels H; destruct levels as [|ds rest]; cbn [lmatch] in H; try contradiction; [reflexivity|].
  rewrite seq_S, rev_app_distr. cbn [rev app map flat_map lvsum]. change (1 + J)%nat with (S J). destruct H as (F1 & F2 & H).
  rewrite (tensors_level T) by exact Hn. rewrite (tensors_tlevel T ds lo hi F1). rewrite inners_app by (rewrite map_length; congruence).
  rewrite inners_map, Nat.sub_succ, Nat.sub_0_r. rewrite IH by exact H. reflexivity.
Qed.

(** the synthesis function on a container of matching shapes *)
Lemma inverse_ok T (lo hi : list K) L w x A levels axes c : wf x -> is_dtype_supported (tdtype x) = true ->
  hint_axes (thint T) (tdim T) = Some axes -> List.length axes = tdim T -> axes_ok (rank x) axes ->
  rank A = rank x -> wf A -> ttag A = ttag x -> List.length (rec_lo w) = L -> List.length (rec_hi w) = L -> (2 <= L)%nat ->
  rec_lo w = rev lo -> rec_hi w = rev hi ->
  let nax := map (norm_axis (rank x)) axes in
  coeffs_fit (List.length (tdfs T lo hi)) nax L A levels ->
  c = mkPC (match T with Twavedec _ => true | _ => false end) (PT A :: map (tlevel T) levels) ->
  inverse T c w = Ok (recN_spec L (map (map (@rev K)) (repeat lo (List.length nax) :: tdfs T lo hi)) nax A levels).
Proof.
  intros Hw Hd Hh Hla Hax HrA HwA HtA H1 H2 HL E1 E2 nax Hfit ->.
  assert (HdA : is_dtype_supported (tdtype A) = true) by (unfold tdtype in *; rewrite HtA; exact Hd).
  assert (Hn : List.length nax = tdim T) by (unfold nax; rewrite map_length; exact Hla).
  rewrite Hn. rewrite <- HrA in Hax. unfold nax in *. rewrite <- HrA in *. clear nax.
  destruct T as [a|h|h|h|h]; cbn [inverse tdim thint pc_items] in *.
  - cbn in Hh. assert (axes = [a]) as -> by congruence. clear Hh. cbn [map] in *. set (p := norm_axis (rank A) a) in *. destruct Hfit as [Hlv Hsz]. cbn [tdfs List.length] in Hlv.
    assert (exists his, levels = map (fun h => [h]) his /\ Forall (fun t => wf t /\ rank t = rank A /\ fsz [p] (shp t) = fsz [p] (shp A) /\ ttag t = ttag A) his) as (his & -> & Hhis).
    { clear - Hlv. induction Hlv as [|ds levels [(A1 & A2 & A3) A4] Hlv (his & -> & IH)]; [exists []; split; [reflexivity|constructor]|].
      destruct ds as [|d [|]]; try discriminate. exists (d :: his). split; [reflexivity|]. constructor; [|exact IH]. pose proof (Forall_inv A2) as (B1 & B2 & B3). pose proof (Forall_inv A4). repeat split; auto. }
    replace (PT A :: map (tlevel (Twavedec a)) (map (fun h => [h]) his)) with (map PT (A :: his)) by (rewrite map_map; reflexivity).
    rewrite (waverec_ok A his w L a (AxInt a)); auto.
    + rewrite waverec_as_recN. fold p. cbn [repeat tdfs map]. rewrite E1, E2. reflexivity.
    + destruct Hax as [Hf _]; exact (Forall_inv Hf).
    + fold p. clear - Hsz. rewrite map_map in Hsz. cbn [lsizes] in Hsz.
      assert (G : forall his k, sizes_fit L [k] (map (fun h => gather [p] 0%nat (shp h)) his) -> lens_fit L k (map (@alen K p) his)).
      { clear. induction his as [|h his IH]; intros k H; [exact I|]. cbn [map sizes_fit lens_fit] in *. destruct H as (E & Hk & H). split; [exact (f_equal (hd 0%nat) E)|]. split; [exact (Forall_inv Hk)|].
        destruct his as [|h' his]; [exact I|]. cbn [map] in *. destruct H as [F H]. split; [inversion F; assumption|]. apply IH. exact H. }
      apply G. exact Hsz.
  - change (mkPC false (PT A :: map (tlevel (Twavedec2 h)) levels)) with (container (Swaverec2 h) A levels). pose proof (synth_ok (Swaverec2 h) A levels w L axes) as S. cbn [synthesise] in S. rewrite S by auto. rewrite E1, E2. reflexivity.
  - change (mkPC false (PT A :: map (tlevel (Twavedec3 h)) levels)) with (container (Swaverec3 h) A levels). pose proof (synth_ok (Swaverec3 h) A levels w L axes) as S. cbn [synthesise] in S. rewrite S by auto. rewrite E1, E2. reflexivity.
  - pose proof (synth_ok (Sfswaverec2 h) A levels w L axes) as S. cbn [synthesise] in S. change (mkPC false (PT A :: map (tlevel (Tfswavedec2 h)) levels)) with (container (Sfswaverec2 h) A levels). rewrite S by auto. rewrite E1, E2. reflexivity.
  - pose proof (synth_ok (Sfswaverec3 h) A levels w L axes) as S. cbn [synthesise] in S. change (mkPC false (PT A :: map (tlevel (Tfswavedec3 h)) levels)) with (container (Sfswaverec3 h) A levels). rewrite S by auto. rewrite E1, E2. reflexivity.
Qed.

(** C82: with zero padding, the synthesis with the time-reversed decomposition filters is the adjoint of the
    analysis, whatever the filters *)
Theorem C82_adjoint T x w w' L level cx c : wf x ->
  List.length (dec_lo w) = L -> List.length (dec_hi w) = L -> (2 <= L)%nat -> Nat.even L = true ->
  rec_lo w' = rev (dec_lo w) -> rec_hi w' = rev (dec_hi w) ->
  (is3 T = true -> (2 <= List.length (pc_items cx))%nat) -> (isfs T = true -> level = None -> ~ In 0%nat (shp x)) ->
  analyse T x w (Some "zero"%string) level = Ok cx -> laid_out_like cx c ->
  exists y, inverse T c w' = Ok y /\ covers x y /\ inners (pc_tensors cx) (pc_tensors c) = inner x y.
Proof.
  intros Hw H1 H2 HL He R1 R2 H3 Hfs E [Hl1 Hl2].
  destruct (analyse_inv T x w Mzero L level cx Hw H1 H2 HL He (fun h => or_introl (H3 h)) Hfs E) as (Hd & axes & Hh & Hla & Hax & HJ). cbv zeta in HJ.
  destruct HJ as (_ & _ & Hlev & Ec). set (nax := map (norm_axis (rank x)) axes) in *. set (J := num_levels _ _ _) in *.
  assert (Hn : List.length nax = tdim T) by (unfold nax; rewrite map_length; exact Hla).
  pose proof (good_axes_ok _ _ Hax) as Hg. fold nax in Hg.
  subst cx. destruct c as [isl items]. unfold tspec in Hl1, Hl2. cbn [pc_is_list pc_items] in Hl1, Hl2. subst isl.
  inversion Hl2 as [|? v ? vs Hv Hvs]; subst items. inversion Hv as [A0 A HA| |]; subst. clear Hl2 Hv. destruct HA as (HA1 & HA2 & HA3). rewrite approx_ttag in HA3.
  destruct (levels_like T _ _ Mzero nax x Hn _ _ Hvs) as (levels & -> & Hlike). clear Hvs.
  assert (HrA : rank A = rank x) by (unfold rank at 1; rewrite HA2; apply approx_rank).
  assert (Hjs : Forall (fun j => 1 <= j)%nat (rev (seq 1 J))) by (apply Forall_forall; intros j Hj; apply in_rev, in_seq in Hj; lia).
  pose proof (lev_fits T (dec_lo w) (dec_hi w) Mzero (List.length (dec_lo w)) nax J x A levels Hn Hg Hw eq_refl H2 HL He Hlev HA2 HA3 Hlike) as Hfit.
  pose proof (lev_lmatch T (dec_lo w) (dec_hi w) nax x J levels (lev_shapes T _ _ Mzero (List.length (dec_lo w)) nax x Hn Hg Hw eq_refl H2 _ _ Hjs Hlike)) as Hm.
  destruct (tdfs_ok T (dec_lo w) (dec_hi w) (List.length (dec_lo w)) nax Hn eq_refl H2) as [Hok Hpos].
  destruct (adj_levels (dec_lo w) (tdfs T (dec_lo w) (dec_hi w)) (List.length (dec_lo w)) nax x eq_refl HL He Hg Hok Hpos levels J A Hm ltac:(intros _; exact HA2)) as [A1 A2].
  eexists. split; [|split].
  - apply (inverse_ok T (dec_lo w) (dec_hi w) (List.length (dec_lo w)) w' x A levels axes); auto.
    + rewrite R1. apply rev_length.
    + rewrite R2, rev_length. exact H2.
  - apply A2. destruct levels; [left|right; discriminate]. destruct J; [|destruct Hm]. intros idx Hi. rewrite HA2. exact Hi.
  - fold nax. rewrite <- A1. unfold pc_tensors, tspec. cbn [pc_items flat_map pv_tensors app]. change (PT (approx (dec_lo w) Mzero nax J x)) with (PT (approx (dec_lo w) Mzero nax J x)).
    rewrite <- (lev_inners T (dec_lo w) (dec_hi w) nax x J Hn levels Hm). reflexivity.
Qed.

Lemma laid_out_tspec T lo hi m L nax J x y : List.length nax = tdim T -> good_axes (rank x) nax -> wf x -> wf y -> shp y = shp x -> ttag y = ttag x ->
  List.length lo = L -> List.length hi = L -> laid_out_like (tspec T lo hi m nax J x) (tspec T lo hi m nax J y).
Proof.
  intros Hn Hg Hw Hw' Hs Ht H1 H2.
  assert (Hr : rank y = rank x) by (unfold rank; rewrite Hs; reflexivity). assert (Hg' : good_axes (rank y) nax) by (rewrite Hr; exact Hg).
  assert (HA : forall j, same_kind (approx lo m nax j x) (approx lo m nax j y)).
  { intros j. split; [apply approx_wf; exact Hw'|]. split; [|rewrite !approx_ttag; exact Ht]. clear - Hs H1. induction j as [|j IH]; [exact Hs|].
    rewrite !approx_S. rewrite !(shp_dwt L (repeat lo (List.length nax)) m nax) by (try apply repeat_length; apply Forall_forall; intros f Hf; rewrite (repeat_spec _ _ _ Hf); exact H1). rewrite IH. reflexivity. }
  assert (HD : forall fs j, (1 <= j)%nat -> List.length fs = List.length nax -> Forall (fun f => List.length f = L) fs -> same_kind (detail lo fs m nax j x) (detail lo fs m nax j y)).
  { intros fs j Hj F1 F2. destruct (detail_facts lo fs m L nax j y Hw' Hg' H1 F1 F2) as (D1 & _). split; [exact D1|]. split.
    - rewrite !(shp_detail lo fs m L) by auto. apply (HA j).
    - unfold detail. cbn [dwt_axes along_axes ttag tmake]. rewrite !approx_ttag. exact Ht. }
  destruct (tdfs_ok T lo hi L nax Hn H1 H2) as [Hok _]. split; [reflexivity|]. cbn [tspec pc_items]. constructor; [constructor; apply HA|].
  assert (Hjs : Forall (fun j => 1 <= j)%nat (rev (seq 1 J))) by (apply Forall_forall; intros j Hj; apply in_rev, in_seq in Hj; lia).
  induction Hjs as [|j js Hj Hjs IH]; cbn [map]; constructor; [|exact IH].
  assert (HD' : Forall (fun fs => same_kind (detail lo fs m nax j x) (detail lo fs m nax j y)) (tdfs T lo hi)) by (eapply Forall_impl; [|exact Hok]; intros fs [F1 F2]; auto).
  clear - HD' Hn.
  assert (G : forall keys, Forall (fun fs => same_kind (detail lo fs m nax j x) (detail lo fs m nax j y)) (map (key_filters lo hi) keys) ->
    Forall2 (fun e e' : string * tensor K => fst e = fst e' /\ same_kind (snd e) (snd e')) (map (fun k => (k, detail lo (key_filters lo hi k) m nax j x)) keys) (map (fun k => (k, detail lo (key_filters lo hi k) m nax j y)) keys)).
  { induction keys as [|k keys IH]; intros H; cbn [map]; inversion H; subst; constructor; auto. }
  destruct T as [a|h|h|h|h]; cbn [tdetails tdfs tdim] in *.
  - constructor. exact (Forall_inv HD').
  - unfold details2. constructor. inversion HD' as [|? ? I1 HD1]; subst. inversion HD1 as [|? ? I2 HD2]; subst. inversion HD2 as [|? ? I3 _]; subst. repeat (constructor; [assumption|]). constructor.
  - constructor. apply (G keys3 HD').
  - unfold detailsN. rewrite Hn. constructor. apply (G (detail_keys 2) HD').
  - unfold detailsN. rewrite Hn. constructor. apply (G (detail_keys 3) HD').
Qed.
Lemma inverse_pr T x w m L level c : cancel2 K -> pr_bank (dec_lo w) (dec_hi w) (rec_lo w) (rec_hi w) L -> wf x ->
  (is3 T = true -> (2 <= List.length (pc_items c))%nat) -> (isfs T = true -> level = None -> ~ In 0%nat (shp x)) ->
  analyse T x w (Some (mode_name m)) level = Ok c -> exists y, inverse T c w = Ok y /\ agrees_on x y.
Proof.
  intros Hc Hp Hw H3 Hfs E. destruct T as [a|h|h|h|h]; cbn [analyse inverse is3 isfs] in *.
  - exact (C01_perfect_reconstruction x w m L level a c Hc Hp Hw E).
  - destruct (C13_perfect_reconstruction_2d x w m L level h c Hc Hp Hw E) as (axes & y & _ & Hy & Ha & _). eauto.
  - destruct (C15_perfect_reconstruction_3d x w m L level h c Hc Hp Hw E (H3 eq_refl)) as (axes & y & _ & Hy & Ha & _). eauto.
  - destruct (C19_perfect_reconstruction_separable x w 2 m L level h c (or_introl eq_refl) Hc Hp Hw (Hfs eq_refl) E) as (axes & y & _ & Hy & Ha & _). eauto.
  - destruct (C19_perfect_reconstruction_separable x w 3 m L level h c (or_intror eq_refl) Hc Hp Hw (Hfs eq_refl) E) as (axes & y & _ & Hy & Ha & _). eauto.
Qed.

(** C81: an orthogonal bank with zero padding keeps inner products ... *)
Theorem C81_inner_products T x y w L level cx cy : cancel2 K -> orthogonal_bank L (dec_lo w) (dec_hi w) (rec_lo w) (rec_hi w) ->
  wf x -> wf y -> shp y = shp x -> ttag y = ttag x ->
  (is3 T = true -> (2 <= List.length (pc_items cx))%nat /\ (2 <= List.length (pc_items cy))%nat) -> (isfs T = true -> level = None -> ~ In 0%nat (shp x)) ->
  analyse T x w (Some "zero"%string) level = Ok cx -> analyse T y w (Some "zero"%string) level = Ok cy ->
  inners (pc_tensors cx) (pc_tensors cy) = inner x y.
Proof.
  intros Hc B Hw Hw' Hs Ht H3 Hfs Ex Ey.
  pose proof (ob_len_lo _ _ _ _ _ B) as H1. pose proof (ob_len_hi _ _ _ _ _ B) as H2. pose proof (ob_two _ _ _ _ _ B) as HL.
  assert (He : Nat.even L = true). { apply Nat.even_spec. exists (L / 2)%nat. pose proof (ob_even _ _ _ _ _ B). pose proof (Nat.div_mod L 2 ltac:(lia)). lia. }
  pose proof (ob_rec_lo _ _ _ _ _ B) as R1. pose proof (ob_rec_hi _ _ _ _ _ B) as R2.
  assert (Hp : pr_bank (dec_lo w) (dec_hi w) (rec_lo w) (rec_hi w) L).
  { rewrite R1, R2 in *. apply pr_iff_orthogonal; auto. }
  assert (Hr : rank y = rank x) by (unfold rank; rewrite Hs; reflexivity).
  destruct (analyse_inv T x w Mzero L level cx Hw H1 H2 HL He (fun h => or_introl (proj1 (H3 h))) Hfs Ex) as (Hd & axes & Hh & Hla & Hax & HJ). cbv zeta in HJ. destruct HJ as (J0 & _ & _ & Ec).
  assert (Hlike : laid_out_like cx cy).
  { destruct (analyse_inv T y w Mzero L level cy Hw' H1 H2 HL He (fun h => or_introl (proj2 (H3 h)))) as (_ & axes' & Hh' & _ & _ & HJ'); auto; [rewrite Hs; exact Hfs|]. cbv zeta in HJ'. destruct HJ' as (_ & _ & _ & Ec').
    rewrite Hh in Hh'. assert (axes' = axes) as -> by congruence. rewrite Hr, Hs in Ec'. rewrite Ec, Ec'. apply (laid_out_tspec T _ _ Mzero L); auto.
    - rewrite map_length. exact Hla.
    - apply good_axes_ok. exact Hax. }
  destruct (C82_adjoint T x w w L level cx cy Hw H1 H2 HL He R1 R2 (fun h => proj1 (H3 h)) Hfs Ex Hlike) as (z & Ez & _ & Hi). rewrite Hi.
  destruct (inverse_pr T y w Mzero L level cy Hc Hp Hw') as (z' & Ez' & Ha); auto.
  { intros H. apply (H3 H). }
  { rewrite Hs. exact Hfs. }
  rewrite Ez in Ez'. apply ok_inj in Ez'. subst z'. unfold inner. apply sumI_ext. intros i Hv. f_equal. apply (proj2 (proj2 Ha)). rewrite Hs. exact Hv.
Qed.
(** ... and energy *)
Theorem C81_energy T x w L level c : cancel2 K -> orthogonal_bank L (dec_lo w) (dec_hi w) (rec_lo w) (rec_hi w) -> wf x ->
  (is3 T = true -> (2 <= List.length (pc_items c))%nat) -> (isfs T = true -> level = None -> ~ In 0%nat (shp x)) ->
  analyse T x w (Some "zero"%string) level = Ok c -> energies (pc_tensors c) = energy x.
Proof.
  intros Hc B Hw H3 Hfs E. pose proof (C81_inner_products T x x w L level c c Hc B Hw Hw eq_refl eq_refl (fun h => conj (H3 h) (H3 h)) Hfs E E) as G.
  unfold energy. change (sumI (shp x) (fun i => get x i * get x i)) with (inner x x). rewrite <- G. clear. unfold energies, inners. induction (pc_tensors c) as [|t l IH]; [reflexivity|].
  cbn [combine sumL fst snd]. rewrite IH. reflexivity.
Qed.
End User.
