(** Property theorems for the separable transforms fswavedec2/3, fswaverec2/3. *)
From Coq Require Import List Arith ZArith Lia Bool String Ascii.
From Coq Require Import ZifyNat ZifyBool.
From Verif Require Import Base Sums Tensor TensorFacts Util Perm Plumb Accept Spec Conv1 PadFacts CoreFacts Analysis AnalysisInv PRKernel Synthesis Filters Wave1 Wave1Inv Rec1 Rec1Inv Lin Examples Props1 Conv2 Conv3 Spec2 SpecSep WaveN RecN Props2 Sep SepFacts SepRec SepRec2 SepRec3.
Import ListNotations.
Ltac Zify.zify_post_hook ::= Z.div_mod_to_equations.

Section PS.
Context {K : CRing}.
Add Ring Kring : (cr_th K).
Implicit Types t u x y : tensor K.
Implicit Types w : wavelet K.

Notation lookup := Sep.dict_get.

(** result of a successful call *)
Lemma fswavedecn_result x w N m L level h c : 1 <= N -> wf x -> List.length (dec_lo w) = L -> List.length (dec_hi w) = L -> 2 <= L -> Nat.even L = true ->
  (level = None -> ~ In 0 (shp x)) ->
  fswavedecn x w N (Some (mode_name m)) level h = Ok c ->
  is_dtype_supported (tdtype x) = true /\ exists axes, hint_axes h N = Some axes /\ List.length axes = N /\ axes_ok (rank x) axes /\
    let nax := map (norm_axis (rank x)) axes in
    let ns := gather nax 0 (shp x) in
    let J := num_levels level L ns in
    levels_all m L J ns /\ c = wavedecn_spec (dec_lo w) (dec_hi w) m nax J x.
Proof.
  intros HN Hw H1 H2 HL He Hz H. destruct (fswavedecn_inv _ _ _ _ _ _ _ H) as (Hd & axes & Hh & Hl & Hax).
  split; [exact Hd|]. exists axes. repeat (split; [assumption|]).
  pose proof (fswavedecn_cases x w N m L level h axes HN Hw Hd Hh Hl Hax H1 H2 HL He) as Hc. cbv zeta in Hc. rewrite H in Hc. apply Hc.
  intros E. apply Forall_forall. intros n Hn. unfold gather in Hn. apply in_map_iff in Hn as (d & <- & Hd').
  apply (axes_ok_lt _ _ _ Hax) in Hd'. specialize (Hz E). destruct (nth d (shp x) 0) eqn:E0; [|lia]. exfalso. apply Hz. rewrite <- E0. apply nth_In. exact Hd'.
Qed.

Lemma pos_sizes x axes : axes_ok (rank x) axes -> ~ In 0 (shp x) -> Forall (fun n => 0 < n) (gather (map (norm_axis (rank x)) axes) 0 (shp x)).
Proof.
  intros Hax Hz. apply Forall_forall. intros n Hn. unfold gather in Hn. apply in_map_iff in Hn as (d & <- & Hd').
  apply (axes_ok_lt _ _ _ Hax) in Hd'. destruct (nth d (shp x) 0) eqn:E0; [|lia]. exfalso. apply Hz. rewrite <- E0. apply nth_In. exact Hd'.
Qed.

(** ** C18: one level of fswavedec2 against one level of wavedec2 *)
Definition same_level2 (v v' : pyval K) : Prop :=
  exists H V D d, v = PTup [H; V; D] /\ v' = PDict d /\
    lookup d "da" = Some H /\ lookup d "ad" = Some V /\ lookup d "dd" = Some D /\ map fst d = ["da"; "ad"; "dd"]%string.
Definition same_coeffs (same_level : pyval K -> pyval K -> Prop) (c c' : pycoeffs K) : Prop :=
  exists A rest rest', pc_items c = PT A :: rest /\ pc_items c' = PT A :: rest' /\ Forall2 same_level rest rest'.

Theorem C18_separable_2d x w m L level h :
  wf x -> List.length (dec_lo w) = L -> List.length (dec_hi w) = L -> 2 <= L -> Nat.even L = true -> (level = None -> ~ In 0 (shp x)) ->
  (forall c, wavedec2 x w (Some (mode_name m)) level h = Ok c ->
     exists c', fswavedec2 x w (Some (mode_name m)) level h = Ok c' /\ same_coeffs same_level2 c c') /\
  (forall c', fswavedec2 x w (Some (mode_name m)) level h = Ok c' ->
     exists c, wavedec2 x w (Some (mode_name m)) level h = Ok c /\ same_coeffs same_level2 c c').
Proof.
  intros Hw H1 H2 HL He Hz.
  assert (Hsame : forall nax J, List.length nax = 2 -> same_coeffs same_level2 (wavedec2_spec (dec_lo w) (dec_hi w) m nax J x) (wavedecn_spec (dec_lo w) (dec_hi w) m nax J x)).
  { intros nax J Hn. eexists _, _, _. split; [reflexivity|]. split; [reflexivity|]. induction (rev (seq 1 J)) as [|j l IH]; cbn [map]; constructor; [|exact IH].
    unfold details2, detailsN. rewrite Hn. repeat eexists; reflexivity. }
  split.
  - intros c H. destruct (wavedec2_result x w m L level h c Hw H1 H2 HL He H) as (Hd & axes & Hh & Hl & Hax & HJ). cbv zeta in HJ. destruct HJ as [Hlev ->].
    pose proof (fswavedecn_cases x w 2 m L level h axes ltac:(lia) Hw Hd Hh Hl Hax H1 H2 HL He) as Hc. cbv zeta in Hc.
    unfold fswavedec2. destruct (fswavedecn x w 2 _ level h) as [c'|e].
    + destruct Hc as [_ ->]; [intros E; apply pos_sizes; auto|]. eexists. split; [reflexivity|]. apply Hsame. rewrite map_length. exact Hl.
    + exfalso. apply (proj1 (Hc ltac:(intros E; apply pos_sizes; auto))). exact Hlev.
  - intros c H. unfold fswavedec2 in H. destruct (fswavedecn_result x w 2 m L level h c ltac:(lia) Hw H1 H2 HL He Hz H) as (Hd & axes & Hh & Hl & Hax & HJ). cbv zeta in HJ. destruct HJ as [Hlev ->].
    pose proof (wavedec2_cases x w m L level h axes Hw Hd Hh Hl Hax H1 H2 HL He) as Hc. cbv zeta in Hc.
    destruct (wavedec2 x w _ level h) as [c'|e].
    + destruct Hc as [_ ->]. eexists. split; [reflexivity|]. apply Hsame. rewrite map_length. exact Hl.
    + exfalso. apply (proj1 Hc). exact Hlev.
Qed.

Definition same_level3 (v v' : pyval K) : Prop :=
  exists d d', v = PDict d /\ v' = PDict d' /\ (forall k, lookup d k = lookup d' k) /\
    forall k, In k (map fst d') <-> In k ["aad"; "ada"; "add"; "daa"; "dad"; "dda"; "ddd"]%string.

Lemma same3 lo hi m nax j x : List.length nax = 3 -> same_level3 (details3 (K := K) lo hi m nax j x) (PDict (detailsN lo hi m nax j x)).
Proof.
  intros Hn. unfold details3, detailsN. rewrite Hn. eexists _, _. split; [reflexivity|]. split; [reflexivity|].
  change (detail_keys 3) with ["daa"; "ada"; "dda"; "aad"; "dad"; "add"; "ddd"]%string.
  set (F := fun k => detail lo (key_filters lo hi k) m nax j x). split.
  - intros k. change (lookup (map (fun k => (k, F k)) keys3) k = lookup (map (fun k => (k, F k)) ["daa"; "ada"; "dda"; "aad"; "dad"; "add"; "ddd"]%string) k).
    assert (G : forall ks, lookup (map (fun k => (k, F k)) ks) k = if existsb (fun q => String.eqb q k) ks then Some (F k) else None).
    { induction ks as [|q ks IH]; cbn; [reflexivity|]. destruct (String.eqb_spec q k) as [->|]; [reflexivity|exact IH]. }
    rewrite !G. unfold keys3. cbn [existsb].
    destruct (String.eqb "daa" k), (String.eqb "ada" k), (String.eqb "dda" k), (String.eqb "aad" k), (String.eqb "dad" k), (String.eqb "add" k), (String.eqb "ddd" k); reflexivity.
  - intros k. rewrite map_map. cbn [map fst In]. intuition.
Qed.

(** wavedec3 with at least one level (its zero-level result has a spurious axis, see C17) *)
Theorem C18_separable_3d x w m L level h :
  wf x -> List.length (dec_lo w) = L -> List.length (dec_hi w) = L -> 2 <= L -> Nat.even L = true -> (level = None -> ~ In 0 (shp x)) ->
  (forall c, wavedec3 x w (Some (mode_name m)) level h = Ok c -> 2 <= List.length (pc_items c) ->
     exists c', fswavedec3 x w (Some (mode_name m)) level h = Ok c' /\ same_coeffs same_level3 c c') /\
  (forall c', fswavedec3 x w (Some (mode_name m)) level h = Ok c' -> 2 <= List.length (pc_items c') ->
     exists c, wavedec3 x w (Some (mode_name m)) level h = Ok c /\ same_coeffs same_level3 c c').
Proof.
  intros Hw H1 H2 HL He Hz.
  assert (Hsame : forall nax J, List.length nax = 3 -> same_coeffs same_level3 (wavedec3_spec (dec_lo w) (dec_hi w) m nax J x) (wavedecn_spec (dec_lo w) (dec_hi w) m nax J x)).
  { intros nax J Hn. eexists _, _, _. split; [reflexivity|]. split; [reflexivity|]. induction (rev (seq 1 J)) as [|j l IH]; cbn [map]; constructor; [|exact IH].
    apply same3. exact Hn. }
  split.
  - intros c H Hlen. destruct (wavedec3_result x w m L level h c Hw H1 H2 HL He H) as (Hd & axes & Hh & Hl & Hax & HJ). cbv zeta in HJ.
    set (J := num_levels _ _ _) in *.
    pose proof (fswavedecn_cases x w 3 m L level h axes ltac:(lia) Hw Hd Hh Hl Hax H1 H2 HL He) as Hc. cbv zeta in Hc. fold J in Hc.
    unfold fswavedec3.
    destruct (Nat.eq_0_gt_0_cases J) as [E0|HJ0].
    { exfalso. pose proof (wavedec3_zero_items x w m L level h axes c Hw Hd Hh Hl Hax H1 H2 HL He E0 H). lia. }
    destruct (HJ HJ0) as [Hlev ->].
    destruct (fswavedecn x w 3 _ level h) as [c'|e].
    + destruct Hc as [_ ->]; [intros E; apply pos_sizes; auto|]. eexists. split; [reflexivity|]. apply Hsame. rewrite map_length. exact Hl.
    + exfalso. apply (proj1 (Hc ltac:(intros E; apply pos_sizes; auto))). exact Hlev.
  - intros c H Hlen. unfold fswavedec3 in H. destruct (fswavedecn_result x w 3 m L level h c ltac:(lia) Hw H1 H2 HL He Hz H) as (Hd & axes & Hh & Hl & Hax & HJ). cbv zeta in HJ. destruct HJ as [Hlev ->].
    set (J := num_levels _ _ _) in *. unfold wavedecn_spec in Hlen. cbn [pc_items List.length] in Hlen. rewrite map_length, rev_length, seq_length in Hlen.
    pose proof (wavedec3_cases x w m L level h axes Hw Hd Hh Hl Hax H1 H2 HL He) as Hc. cbv zeta in Hc. specialize (Hc ltac:(fold J; lia)). fold J in Hc.
    destruct (wavedec3 x w _ level h) as [c'|e].
    + destruct Hc as [_ ->]. eexists. split; [reflexivity|]. apply Hsame. rewrite map_length. exact Hl.
    + exfalso. apply (proj1 Hc). exact Hlev.
Qed.


(** ** Synthesis.  fswaverec3 keeps the details in another order than waverec3 *)
Definition perm7 (ds : list (tensor K)) : list (tensor K) :=
  match ds with [a; b; c; d; e; f; g] => [d; b; f; a; e; c; g] | _ => ds end.
Lemma perm7_in ds d : In d (perm7 ds) <-> In d ds.
Proof. destruct ds as [|? [|? [|? [|? [|? [|? [|? [|]]]]]]]]; cbn; tauto. Qed.
Lemma perm7_length ds : List.length (perm7 ds) = List.length ds.
Proof. destruct ds as [|? [|? [|? [|? [|? [|? [|? [|]]]]]]]]; reflexivity. Qed.
Lemma perm7_lsizes nax r F (ds : list (tensor K)) : level_ok 7 nax r F ds -> lsizes nax (perm7 ds) = lsizes nax ds.
Proof.
  intros (Hl & _ & Hs). destruct ds as [|a [|b [|c [|d [|e [|f [|g [|]]]]]]]]; try discriminate. cbn [perm7 lsizes]. f_equal. apply Hs; cbn; tauto.
Qed.
Lemma perm7_fit nax L (lo : tensor K) levels : coeffs_fit 7 nax L lo levels -> coeffs_fit 7 nax L lo (map perm7 levels).
Proof.
  intros [H1 H2]. split.
  - apply Forall_map. eapply Forall_impl; [|exact H1]. cbv beta. intros ds [(A1 & A2 & A3) B]. repeat split.
    + rewrite perm7_length. exact A1.
    + rewrite Forall_forall in *. intros d Hd. apply A2, perm7_in, Hd.
    + intros d d' Hd Hd'. apply A3; apply perm7_in; assumption.
    + rewrite Forall_forall in *. intros d Hd. apply B, perm7_in, Hd.
  - rewrite map_map. erewrite map_ext_in; [exact H2|]. intros ds Hds. rewrite Forall_forall in H1. destruct (H1 ds Hds) as [A _]. eapply perm7_lsizes, A.
Qed.
Lemma idwtN_perm7 L rlo rhi nax (lo : tensor K) ds outs : List.length ds = 7 ->
  idwtN L (chansW 3 rlo rhi) nax lo (perm7 ds) outs = idwtN L (chans3 rlo rhi) nax lo ds outs.
Proof.
  intros Hl. destruct ds as [|a [|b [|c [|d [|e [|f [|g [|]]]]]]]]; try discriminate. unfold idwtN, idwt_axes. cbn [perm7 nth].
  apply make_ext. intros idx _. change (List.length (chansW 3 rlo rhi)) with 8. change (List.length (chans3 rlo rhi)) with 8.
  cbn [sumf nth]. unfold chansW, chans3, keys3. cbn [words app map nth].
  set (s := gather nax 0%nat (shp lo)). set (is := gather nax 0%nat idx). ring.
Qed.
Lemma recN_perm7 L rlo rhi nax levels : forall (lo : tensor K), 
  Forall (fun ds => exists r F, level_ok 7 nax r F ds) levels ->
  recN_spec L (chansW 3 rlo rhi) nax lo (map perm7 levels) = recN_spec L (chans3 rlo rhi) nax lo levels.
Proof.
  induction levels as [|ds rest IH]; intros lo H; [reflexivity|]. inversion H as [|? ? (r & F & Hd) Hr]; subst. cbn [map recN_spec].
  rewrite IH by exact Hr. f_equal. rewrite idwtN_perm7 by apply Hd. f_equal.
  unfold recN_outs. destruct rest as [|d2 rest]; [reflexivity|]. cbn [map]. pose proof (Forall_inv Hr) as (r2 & F2 & H2).
  destruct d2 as [|a [|b [|c [|d [|e [|f [|g [|]]]]]]]]; try (destruct H2 as [H2 _]; discriminate).
  cbn [perm7]. f_equal. apply (proj2 (proj2 H2)); cbn; tauto.
Qed.

Lemma dict_lvl2 (d : sdict (K := K)) H V D : lookup d "da" = Some H -> lookup d "ad" = Some V -> lookup d "dd" = Some D ->
  (forall k, In k (map fst d) -> In k ["da"; "ad"; "dd"]%string) -> dict_lvl 2 d [H; V; D].
Proof.
  intros E1 E2 E3 Hk. split.
  - change (detail_keys 2) with ["da"; "ad"; "dd"]%string. cbn [map]. rewrite E1, E2, E3. reflexivity.
  - intros s Hs. apply Hk in Hs. assert (Hd : In s (detail_keys 2)) by exact Hs. apply detail_keys_spec in Hd. tauto.
Qed.

(** two coefficient containers with the same contents: [(H, V, D), ...] for waverec2 and
    [{da: H, ad: V, dd: D}, ...] for fswaverec2 *)
Definition dict2_of (ds : list (tensor K)) (d : sdict (K := K)) : Prop :=
  map (lookup d) ["da"; "ad"; "dd"]%string = map Some ds /\ forall k, In k (map fst d) <-> In k ["da"; "ad"; "dd"]%string.
Definition dict3_of (ds : list (tensor K)) (d : sdict (K := K)) : Prop :=
  map (lookup d) keys3 = map Some ds /\ forall k, In k (map fst d) <-> In k keys3.

Lemma dict2_lvl ds d : dict2_of ds d -> dict_lvl 2 d ds.
Proof.
  intros [H Hk]. split; [exact H|]. intros s Hs. apply Hk in Hs. assert (Hd : In s (detail_keys 2)) by exact Hs. apply detail_keys_spec in Hd. tauto.
Qed.
Lemma dict3_lvl ds d : dict3_of ds d -> dict_lvl 3 d (perm7 ds).
Proof.
  intros [H Hk]. split.
  - unfold keys3 in H. cbn [map] in H. destruct ds as [|a [|b [|c [|e [|f [|g [|h [|]]]]]]]]; try discriminate. cbn [map] in H. injection H as E1 E2 E3 E4 E5 E6 E7.
    change (detail_keys 3) with ["daa"; "ada"; "dda"; "aad"; "dad"; "add"; "ddd"]%string. cbn [map perm7]. congruence.
  - intros s Hs. apply Hk in Hs.
    assert (Hd : In s (detail_keys 3)).
    { change (detail_keys 3) with ["daa"; "ada"; "dda"; "aad"; "dad"; "add"; "ddd"]%string. unfold keys3 in Hs. cbn [In] in *. tauto. }
    apply detail_keys_spec in Hd. tauto.
Qed.
(** no tensor is hidden behind an earlier entry with the same key *)
Lemma lookup_all (d : sdict (K := K)) t : NoDup (map fst d) -> In t (map snd d) -> exists k, In k (map fst d) /\ lookup d k = Some t.
Proof.
  induction d as [|[k u] d IH]; cbn [map fst snd In]; [intros _ []|]. intros Hnd [<-|Hin]; inversion Hnd as [|? ? Hni Hnd']; subst.
  - exists k. split; [now left|]. cbn. rewrite String.eqb_refl. reflexivity.
  - destruct (IH Hnd' Hin) as (q & Hq & E). exists q. split; [now right|]. cbn. destruct (String.eqb_spec k q) as [->|]; [contradiction|exact E].
Qed.
Lemma dict_of_in (ks : list string) (d : sdict (K := K)) (l : list (tensor K)) t : NoDup (map fst d) -> map (lookup d) ks = map Some l ->
  (forall k, In k (map fst d) -> In k ks) -> In t (map snd d) -> In t l.
Proof.
  intros Hnd Hm Hk Ht. destruct (lookup_all d t Hnd Ht) as (k & Hin & E). apply Hk in Hin.
  assert (G : In (Some t) (map Some l)) by (rewrite <- Hm, <- E; apply in_map; exact Hin).
  apply in_map_iff in G as (u & Hu & Hl). congruence.
Qed.

Lemma fit_entries C nax L (lo : tensor K) levels ds t : coeffs_fit C nax L lo levels -> In ds levels -> In t ds -> wf t /\ rank t = rank lo /\ ttag t = ttag lo.
Proof.
  intros [H _] Hd Ht. rewrite Forall_forall in H. destruct (H ds Hd) as [(_ & A & _) B]. rewrite Forall_forall in A, B.
  destruct (A t Ht) as (A1 & A2 & _). auto.
Qed.
Lemma F2_in_l {A B} (R : A -> B -> Prop) l l' a : Forall2 R l l' -> In a l -> exists b, In b l' /\ R a b.
Proof. induction 1; [intros []|]. intros [->|H']; [eexists; split; [now left|assumption]|]. destruct (IHForall2 H') as (b & Hb & HR). exists b. split; [now right|assumption]. Qed.

Lemma fit2 nax L (lo : tensor K) levels dicts : Forall2 dict2_of levels dicts -> Forall (fun d => NoDup (map fst d)) dicts ->
  coeffs_fit 3 nax L lo levels -> dicts_fit 2 nax L lo dicts levels.
Proof.
  intros HF Hnd Hfit. split; [|split; [|exact Hfit]].
  - clear - HF. induction HF; constructor; auto using dict2_lvl.
  - intros d t Hd Ht. assert (HF' : Forall2 (fun d ds => dict2_of ds d) dicts levels) by (clear - HF; induction HF; constructor; auto).
    destruct (F2_in_l _ _ _ _ HF' Hd) as (ds & Hds & [Hm Hk]). rewrite Forall_forall in Hnd.
    apply (fit_entries _ _ _ _ _ ds t Hfit Hds). apply (dict_of_in _ d ds t (Hnd d Hd) Hm); [intros k; apply Hk|exact Ht].
Qed.
Lemma fit3 nax L (lo : tensor K) levels dicts : Forall2 dict3_of levels dicts -> Forall (fun d => NoDup (map fst d)) dicts ->
  coeffs_fit 7 nax L lo levels -> dicts_fit 3 nax L lo dicts (map perm7 levels).
Proof.
  intros HF Hnd Hfit. split; [|split; [|exact (perm7_fit _ _ _ _ Hfit)]].
  - clear - HF. induction HF; cbn; constructor; auto using dict3_lvl.
  - intros d t Hd Ht. assert (HF' : Forall2 (fun d ds => dict3_of ds d) dicts levels) by (clear - HF; induction HF; constructor; auto).
    destruct (F2_in_l _ _ _ _ HF' Hd) as (ds & Hds & [Hm Hk]). rewrite Forall_forall in Hnd.
    apply (fit_entries _ _ _ _ _ ds t Hfit Hds). apply (dict_of_in _ d ds t (Hnd d Hd) Hm); [intros k; apply Hk|exact Ht].
Qed.

(** C18 for the inverse transforms, on all coefficients whose shapes fit together *)
Theorem C18_synthesis_2d lo levels dicts w L h axes : wf lo -> is_dtype_supported (tdtype lo) = true ->
  hint_axes h 2 = Some axes -> List.length axes = 2 -> axes_ok (rank lo) axes ->
  List.length (rec_lo w) = L -> List.length (rec_hi w) = L -> 2 <= L ->
  coeffs_fit 3 (map (norm_axis (rank lo)) axes) L lo levels ->
  Forall2 dict2_of levels dicts -> Forall (fun d => NoDup (map fst d)) dicts ->
  exists y, waverec2 (mkPC false (PT lo :: map PTup levels)) w h = Ok y /\
            fswaverec2 (mkPC false (PT lo :: map PDict dicts)) w h = Ok y.
Proof.
  intros Hw Hd Hh Hl Hax H1 H2 HL Hfit HF Hnd. eexists. split; [apply (waverec2_ok lo levels w L h axes); auto|].
  change (chans2 (rec_lo w) (rec_hi w)) with (chansW 2 (rec_lo w) (rec_hi w)).
  apply (fswaverecn_ok lo dicts levels w L 2 h axes); auto. apply fit2; assumption.
Qed.
Theorem C18_synthesis_3d lo levels dicts w L h axes : wf lo -> is_dtype_supported (tdtype lo) = true ->
  hint_axes h 3 = Some axes -> List.length axes = 3 -> axes_ok (rank lo) axes ->
  List.length (rec_lo w) = L -> List.length (rec_hi w) = L -> 2 <= L ->
  coeffs_fit 7 (map (norm_axis (rank lo)) axes) L lo levels ->
  Forall2 dict3_of levels dicts -> Forall (fun d => NoDup (map fst d)) dicts ->
  exists y, waverec3 (mkPC false (PT lo :: map (fun ds => PDict (combine keys3 ds)) levels)) w h = Ok y /\
            fswaverec3 (mkPC false (PT lo :: map PDict dicts)) w h = Ok y.
Proof.
  intros Hw Hd Hh Hl Hax H1 H2 HL Hfit HF Hnd. eexists. split; [apply (waverec3_ok lo levels w L h axes); auto|].
  set (nax := map (norm_axis (rank lo)) axes) in *. rewrite <- (recN_perm7 L (rec_lo w) (rec_hi w) nax levels lo).
  2:{ destruct Hfit as [Hf _]. eapply Forall_impl; [|exact Hf]. cbv beta. intros ds [A _]. eauto. }
  apply (fswaverecn_ok lo dicts (map perm7 levels) w L 3 h axes); auto. apply fit3; assumption.
Qed.

(** ** C19 *)
Lemma specN_fits2 w m L nax J x : List.length nax = 2 -> wf x -> good_axes (rank x) nax ->
  List.length (dec_lo w) = L -> List.length (dec_hi w) = L -> 2 <= L -> Nat.even L = true -> levels_all m L J (gather nax 0 (shp x)) ->
  dicts_fit 2 nax L (approx (dec_lo w) m nax J x) (map (fun j => detailsN (dec_lo w) (dec_hi w) m nax j x) (rev (seq 1 J)))
    (dlevels 2 (dec_lo w) (dec_hi w) m nax J x).
Proof.
  intros Hn Hw Hg H1 H2 HL He Hlev. apply fit2; [| |apply (spec_fits 2 _ _ m L nax J x); auto; lia].
  - unfold dlevels. induction (rev (seq 1 J)) as [|j l IH]; cbn [map]; constructor; [|exact IH].
    unfold detailsN. rewrite Hn. split; [reflexivity|]. intros k. reflexivity.
  - apply Forall_map, Forall_forall. intros j _. unfold detailsN. rewrite Hn. cbn. repeat constructor; cbn; intuition discriminate.
Qed.
Lemma specN_fits3 w m L nax J x : List.length nax = 3 -> wf x -> good_axes (rank x) nax ->
  List.length (dec_lo w) = L -> List.length (dec_hi w) = L -> 2 <= L -> Nat.even L = true -> levels_all m L J (gather nax 0 (shp x)) ->
  dicts_fit 3 nax L (approx (dec_lo w) m nax J x) (map (fun j => detailsN (dec_lo w) (dec_hi w) m nax j x) (rev (seq 1 J)))
    (map perm7 (dlevels 3 (dec_lo w) (dec_hi w) m nax J x)).
Proof.
  intros Hn Hw Hg H1 H2 HL He Hlev. apply fit3; [| |apply (spec_fits 3 _ _ m L nax J x); auto; lia].
  - unfold dlevels. induction (rev (seq 1 J)) as [|j l IH]; cbn [map]; constructor; [|exact IH].
    unfold detailsN. rewrite Hn. split; [reflexivity|]. intros k. change (detail_keys 3) with ["daa"; "ada"; "dda"; "aad"; "dad"; "add"; "ddd"]%string.
    unfold keys3. cbn [map fst In]. tauto.
  - apply Forall_map, Forall_forall. intros j _. unfold detailsN. rewrite Hn. cbn. repeat constructor; cbn; intuition discriminate.
Qed.
Lemma fs_rec_spec x w N m L h J axes : (N = 2 \/ N = 3) -> cancel2 K -> pr_bank (dec_lo w) (dec_hi w) (rec_lo w) (rec_hi w) L -> wf x ->
  is_dtype_supported (tdtype x) = true -> hint_axes h N = Some axes -> List.length axes = N -> axes_ok (rank x) axes ->
  let nax := map (norm_axis (rank x)) axes in levels_all m L J (gather nax 0 (shp x)) ->
  fswaverecn (wavedecn_spec (dec_lo w) (dec_hi w) m nax J x) w N h = Ok (match J with O => x | _ => ext_even m nax x end).
Proof.
  intros HN Hc Hpr Hw Hd Hh Hl Hax nax Hlev. pose proof (pr_len _ _ _ _ _ Hpr) as (H1 & H2 & H3 & H4).
  pose proof (pr_two _ _ _ _ _ Hpr) as HL. pose proof (pr_even _ _ _ _ _ Hpr) as He. pose proof (good_axes_ok _ _ Hax) as Hg. fold nax in Hg.
  assert (Hn : List.length nax = N) by (unfold nax; rewrite map_length; exact Hl).
  destruct (approx_ok (dec_lo w) m nax J x Hw Hg) as (A1 & A2 & A3 & A4).
  assert (Ew : wavedecn_spec (dec_lo w) (dec_hi w) m nax J x = sep_coeffs (approx (dec_lo w) m nax J x) (map (fun j => detailsN (dec_lo w) (dec_hi w) m nax j x) (rev (seq 1 J)))).
  { unfold wavedecn_spec, sep_coeffs. rewrite map_map. reflexivity. }
  rewrite Ew. destruct HN as [-> | ->].
  - rewrite (fswaverecn_ok _ _ (dlevels 2 (dec_lo w) (dec_hi w) m nax J x) w L 2 h axes); auto; rewrite ?A2; auto.
    + fold nax. change (chansW 2 (rec_lo w) (rec_hi w)) with (chansD 2 (rec_lo w) (rec_hi w)). f_equal. apply recN_pr; auto; lia.
    + unfold tdtype. rewrite A4. exact Hd.
    + fold nax. apply specN_fits2; auto.
  - rewrite (fswaverecn_ok _ _ (map perm7 (dlevels 3 (dec_lo w) (dec_hi w) m nax J x)) w L 3 h axes); auto; rewrite ?A2; auto.
    + fold nax. rewrite recN_perm7.
      * rewrite chans3_D. f_equal. apply recN_pr; auto; lia.
      * destruct (spec_fits 3 (dec_lo w) (dec_hi w) m L nax J x) as [Hf _]; auto; try lia. eapply Forall_impl; [|exact Hf]. cbv beta. intros ds [A _]. eauto.
    + unfold tdtype. rewrite A4. exact Hd.
    + fold nax. apply specN_fits3; auto.
Qed.

Theorem C19_perfect_reconstruction_separable x w N m L level h c : (N = 2 \/ N = 3) ->
  cancel2 K -> pr_bank (dec_lo w) (dec_hi w) (rec_lo w) (rec_hi w) L -> wf x ->
  (level = None -> ~ In 0 (shp x)) ->
  fswavedecn x w N (Some (mode_name m)) level h = Ok c ->
  exists axes y, hint_axes h N = Some axes /\ fswaverecn c w N h = Ok y /\ agrees_on x y /\
    let nax := map (norm_axis (rank x)) axes in
    shp y = upds nax (map (fun n => if Nat.eqb (List.length (pc_items c)) 1 then n else n + n mod 2) (gather nax 0 (shp x))) (shp x).
Proof.
  intros HN Hc Hpr Hw Hz H. pose proof (pr_len _ _ _ _ _ Hpr) as (H1 & H2 & H3 & H4). pose proof (pr_two _ _ _ _ _ Hpr) as HL.
  pose proof (pr_even _ _ _ _ _ Hpr) as He.
  destruct (fswavedecn_result x w N m L level h c ltac:(lia) Hw H1 H2 HL He Hz H) as (Hd & axes & Hh & Hl & Hax & HJ). cbv zeta in HJ.
  destruct HJ as [Hlev ->]. set (nax := map (norm_axis (rank x)) axes) in *. set (J := num_levels _ _ _) in *.
  pose proof (good_axes_ok _ _ Hax) as Hg. fold nax in Hg.
  exists axes. eexists. split; [exact Hh|]. split; [apply (fs_rec_spec x w N m L h J axes); assumption|].
  fold nax. unfold wavedecn_spec. cbn [pc_items List.length]. rewrite map_length, rev_length, seq_length. cbv zeta.
  destruct J as [|J'].
  - split; [apply agrees_refl|]. cbn [Nat.eqb]. rewrite map_id, upds_gather. reflexivity.
  - split; [apply ext_even_agrees; assumption|]. cbn [Nat.eqb]. apply shp_ext_even.
Qed.

(** ** C17, C07, C08 for fswavedec2/3 *)
Theorem C08_which_levels_separable x w N m L level h axes : 1 <= N -> wf x -> is_dtype_supported (tdtype x) = true ->
  hint_axes h N = Some axes -> List.length axes = N -> axes_ok (rank x) axes ->
  List.length (dec_lo w) = L -> List.length (dec_hi w) = L -> 2 <= L -> Nat.even L = true ->
  let ns := gather (map (norm_axis (rank x)) axes) 0 (shp x) in
  Forall (fun n => 0 < n) ns ->
  let ok := forall j n, j < num_levels level L ns -> In n ns -> admissible m L (len_after L j n) in
  (ok -> exists c, fswavedecn x w N (Some (mode_name m)) level h = Ok c) /\
  (~ ok -> fswavedecn x w N (Some (mode_name m)) level h = Raise RuntimeError).
Proof.
  intros HN Hw Hd Hh Hla Hax H1 H2 HL He ns Hpos ok.
  pose proof (fswavedecn_cases x w N m L level h axes HN Hw Hd Hh Hla Hax H1 H2 HL He) as Hc. cbv zeta in Hc. fold ns in Hc.
  specialize (Hc (fun _ => Hpos)).
  assert (Hiff : ok <-> levels_all m L (num_levels level L ns) ns).
  { unfold ok, levels_all. rewrite Forall_forall. split; [intros H n Hn j Hj; apply H; assumption|intros H j n Hj Hn; apply (H n Hn j Hj)]. }
  destruct (fswavedecn x w N _ level h) as [c|e]; [split; [eauto|tauto]|]. destruct Hc as [Hn Hr]. split; [tauto|].
  intros _. rewrite (Hr Hpos). reflexivity.
Qed.
Theorem C07_default_level_separable x w N m L h axes : 1 <= N -> wf x -> is_dtype_supported (tdtype x) = true ->
  hint_axes h N = Some axes -> List.length axes = N -> axes_ok (rank x) axes ->
  List.length (dec_lo w) = L -> List.length (dec_hi w) = L -> 2 <= L -> Nat.even L = true ->
  Forall (fun n => 0 < n) (gather (map (norm_axis (rank x)) axes) 0 (shp x)) ->
  exists c, fswavedecn x w N (Some (mode_name m)) None h = Ok c.
Proof.
  intros HN Hw Hd Hh Hla Hax H1 H2 HL He Hpos.
  pose proof (fswavedecn_cases x w N m L None h axes HN Hw Hd Hh Hla Hax H1 H2 HL He) as Hc. cbv zeta in Hc. specialize (Hc (fun _ => Hpos)).
  destruct (fswavedecn x w N _ None h) as [c|e]; [eauto|]. exfalso. apply (proj1 Hc). apply num_levels_default_ok; assumption.
Qed.
Lemma num_levels_zero level L ns : 2 <= L -> match level with Some z => (z <= 0)%Z | None => exists n, In n ns /\ n < 2 * (L - 1) end -> num_levels level L ns = 0.
Proof.
  intros HL Hz. destruct level as [z|]; cbn [num_levels]; [lia|]. destruct Hz as (n & Hn & Hlt).
  assert (Hd0 : default_level L n = 0).
  { unfold default_level. destruct (Nat.ltb_spec n (L - 1)); [reflexivity|]. replace (n / (L - 1)) with 1; [reflexivity|]. apply (Nat.div_unique n (L - 1) 1 (n - (L - 1))); lia. }
  assert (G : forall l b, fold_left Nat.min l b <= b /\ forall z, In z l -> fold_left Nat.min l b <= z).
  { induction l as [|c l IH]; intros b; cbn; [split; [lia|intros z []]|]. destruct (IH (Nat.min b c)) as [I1 I2].
    split; [lia|]. intros z [<-|Hzz]; [lia|]. apply I2. exact Hzz. }
  destruct ns as [|a r]; [destruct Hn|]. destruct (G (map (default_level L) r) (default_level L a)) as [G1 G2].
  destruct Hn as [->|Hn]; [lia|]. specialize (G2 (default_level L n) (in_map _ _ _ Hn)). lia.
Qed.
Theorem C17_zero_level_separable x w N m L level h axes : 1 <= N -> wf x -> is_dtype_supported (tdtype x) = true ->
  hint_axes h N = Some axes -> List.length axes = N -> axes_ok (rank x) axes ->
  List.length (dec_lo w) = L -> List.length (dec_hi w) = L -> 2 <= L -> Nat.even L = true ->
  let ns := gather (map (norm_axis (rank x)) axes) 0 (shp x) in
  match level with Some z => (z <= 0)%Z | None => (exists n, In n ns /\ n < 2 * (L - 1)) /\ Forall (fun n => 0 < n) ns end ->
  fswavedecn x w N (Some (mode_name m)) level h = Ok (mkPC false [PT x]).
Proof.
  intros HN Hw Hd Hh Hla Hax H1 H2 HL He ns Hz.
  pose proof (fswavedecn_cases x w N m L level h axes HN Hw Hd Hh Hla Hax H1 H2 HL He) as Hc. cbv zeta in Hc. fold ns in Hc.
  assert (Hz' : level = None -> Forall (fun n => 0 < n) ns) by (intros ->; apply Hz). specialize (Hc Hz').
  rewrite num_levels_zero in Hc by (destruct level; tauto).
  destruct (fswavedecn x w N _ level h) as [c|e].
  - destruct Hc as [_ ->]. reflexivity.
  - exfalso. apply (proj1 Hc). unfold levels_all. apply Forall_forall. intros n _ j Hj. lia.
Qed.

(** ** C20, C21 for fswaverec2/3: what happens to the caller's containers.
    [fswaverecn_eff] returns the result and the caller's containers after the call. *)
Theorem C20_fswaverec_containers lo dicts levels w L N h axes r c' : 1 <= N -> wf lo -> is_dtype_supported (tdtype lo) = true ->
  hint_axes h N = Some axes -> List.length axes = N -> axes_ok (rank lo) axes ->
  List.length (rec_lo w) = L -> List.length (rec_hi w) = L -> 2 <= L ->
  dicts_fit N (map (norm_axis (rank lo)) axes) L lo dicts levels ->
  fswaverecn_eff (mkPC false (PT lo :: map PDict dicts)) w N h = (r, c') ->
  exists dicts', c' = mkPC false (PT lo :: map PDict dicts') /\
    (* nothing changes unless the coefficients have rank N+1 and the axes are the default ones -N..-1 *)
    (rank lo <> N + 1 \/ axes <> default_axes N -> dicts' = dicts) /\
    (* in that case exactly the entry aa..a of every level is set *)
    (rank lo = N + 1 -> axes = default_axes N -> Forall2 (fun d d' =>
       (exists v, lookup d' (akey N) = Some v) /\ forall k, k <> akey N -> lookup d' k = lookup d k) dicts dicts').
Proof.
  intros HN Hw Hd Hh Hla Hax H1 H2 HL Hf Heff.
  destruct (fswaverecn_eff_ok lo dicts levels w L N h axes HN Hw Hd Hh Hla Hax H1 H2 HL Hf) as (ds' & E & Hal).
  change (mkPC false (PT lo :: map PDict dicts)) with (sep_coeffs lo dicts) in *. rewrite Heff in E.
  assert (Hpa : pre_aliases (sep_coeffs lo dicts) N h = list_eqb Z.eqb axes (default_axes N) && Nat.eqb (rank lo) (N + 1)).
  { unfold pre_aliases. rewrite (ensure_axes_ok h N axes (rank lo) Hh Hax). unfold get_default_axes. rewrite (proj2 (Nat.ltb_ge N 1)) by exact HN. reflexivity. }
  destruct (pre_aliases (sep_coeffs lo dicts) N h) eqn:Eal; injection E as -> ->; symmetry in Hpa.
  - apply andb_true_iff in Hpa as [P1 P2]. apply list_eqb_Z_spec in P1. apply Nat.eqb_eq in P2.
    exists ds'. split; [reflexivity|]. split; [intros [H|H]; congruence|]. intros _ _. destruct (Hal eq_refl) as [HF _]. clear - HF. induction HF as [|d d' l l' (v & -> & _) HF IH]; constructor; auto.
    split; [exists v; rewrite dict_get_set, String.eqb_refl; reflexivity|].
    intros k Hk. rewrite dict_get_set. rewrite String.eqb_sym, (proj2 (String.eqb_neq _ _) Hk). reflexivity.
  - exists dicts. split; [reflexivity|]. split; [auto|]. intros Hr Ha. exfalso. apply andb_false_iff in Hpa as [P|P].
    + rewrite (proj2 (list_eqb_Z_spec _ _) Ha) in P. discriminate.
    + apply Nat.eqb_neq in P. congruence.
Qed.
Theorem C21_fswaverec_repeatable lo dicts levels w L N h axes c' r : 1 <= N -> wf lo -> is_dtype_supported (tdtype lo) = true ->
  hint_axes h N = Some axes -> List.length axes = N -> axes_ok (rank lo) axes ->
  List.length (rec_lo w) = L -> List.length (rec_hi w) = L -> 2 <= L ->
  dicts_fit N (map (norm_axis (rank lo)) axes) L lo dicts levels ->
  fswaverecn_eff (mkPC false (PT lo :: map PDict dicts)) w N h = (r, c') -> fswaverecn_eff c' w N h = (r, c').
Proof. intros HN Hw Hd Hh Hla Hax H1 H2 HL Hf. apply (fswaverecn_twice lo dicts levels w L N h axes); assumption. Qed.

End PS.

(** ** Concrete instances *)
Example ex_C18 : match wavedec2 (exT [3; 5; 6]) exW4 (Some (mode_name Mreflect)) (Some 2%Z) AxNone, fswavedec2 (exT [3; 5; 6]) exW4 (Some (mode_name Mreflect)) (Some 2%Z) AxNone with
  | Ok (mkPC _ [PT a; PTup [h2; v2; d2]; PTup [h1; v1; d1]]), Ok (mkPC _ [PT a'; PDict [(k1, h2'); (k2, v2'); (k3, d2')]; PDict [(_, h1'); (_, v1'); (_, d1')]]) =>
      [a; h2; v2; d2; h1; v1; d1] = [a'; h2'; v2'; d2'; h1'; v1'; d1'] /\ [k1; k2; k3] = ["da"; "ad"; "dd"]%string
  | _, _ => False end.
Proof. vm_compute. split; reflexivity. Qed.
Example ex_C19 : match fswavedec3 (exT [3; 4; 2; 5]) exW2 (Some (mode_name Msymmetric)) (Some 1%Z) (AxSeq [3%Z; 0%Z; 1%Z]) with
  | Ok c => match fswaverec3 c exW2 (AxSeq [3%Z; 0%Z; 1%Z]) with
            | Ok y => shp y = [4; 4; 2; 6] /\ get y [2; 3; 1; 4] = get (exT [3; 4; 2; 5]) [2; 3; 1; 4]
            | Raise _ => False end
  | Raise _ => False end.
Proof. vm_compute. repeat split. Qed.
(** default level on an empty axis: OverflowError (wavedec2 returns the input) *)
Example ex_fs_empty_axis : fswavedec2 (exT [0; 4]) exW2 (Some (mode_name Mzero)) None AxNone = Raise OverflowError.
Proof. vm_compute. reflexivity. Qed.

(** Finding: fswaverec2 changes the dictionaries of the caller *)
Definition keys_of (c : pycoeffs ZK) : list (list string) := map (fun v => match v with PDict d => map fst d | _ => [] end) (pc_items c).
Theorem C20_fswaverec2_mutates_refuted :
  match fswavedec2 (exT [2; 4; 4]) exW2 (Some (mode_name Mreflect)) (Some 1%Z) AxNone with
  | Ok c => keys_of c = [[]; ["da"; "ad"; "dd"]]%string /\
            keys_of (snd (fswaverecn_eff c exW2 2 AxNone)) = [[]; ["da"; "ad"; "dd"; "aa"]]%string
  | Raise _ => False end.
Proof. vm_compute. split; reflexivity. Qed.
