(** Separable analysis: composing one-axis transforms gives the n-d transform. *)
From Coq Require Import List Arith ZArith Lia Bool String Ascii.
From Coq Require Import ZifyNat ZifyBool.
From Verif Require Import Base Sums Tensor TensorFacts Util Perm Plumb Accept Spec Spec2 SpecSep Conv1 PadFacts CoreFacts Analysis AnalysisInv PRKernel Synthesis Filters Wave1 Wave1Inv Conv2 WaveN Sep.
Import ListNotations.
Ltac Zify.zify_post_hook ::= Z.div_mod_to_equations.

Section SF.
Context {K : CRing}.
Add Ring Kring : (cr_th K).
Implicit Types t u x A : tensor K.
Implicit Types w : wavelet K.

(** * one more axis *)
Lemma ext_get_cons m n s X z zs : ext_get m (n :: s) X (z :: zs) =
  (match ext_idx m n z with Some i => ext_get m s (fun is => X (i :: is)) zs | None => kzero end : K).
Proof. unfold ext_get. cbn [ext_idxs]. destruct (ext_idx m n z); [|reflexivity]. destruct (ext_idxs m s zs); reflexivity. Qed.

Lemma ext_get1 m n X z : ext_get m [n] X [z] = (match ext_idx m n z with Some i => X [i] | None => kzero end : K).
Proof. unfold ext_get. cbn [ext_idxs]. destruct (ext_idx m n z); reflexivity. Qed.

Lemma good_cons r a nax : good_axes r (a :: nax) -> ~ In a nax /\ a < r /\ good_axes r nax.
Proof. intros [H1 H2]. inversion H1; subst. split; [assumption|]. split; [apply H2; now left|]. split; [assumption|]. intros d Hd. apply H2. now right. Qed.

Lemma upds_updn_notin axes vals a v idx : ~ In a axes -> upds axes vals (updn a v idx) = updn a v (upds axes vals idx).
Proof.
  revert vals. induction axes as [|b axes IH]; intros [|u vals] H; cbn; try reflexivity.
  rewrite IH by (cbn in H; tauto). apply updn_comm. cbn in H. intros ->. tauto.
Qed.

Lemma dwt_axes_cons f fs m a nax x : good_axes (rank x) (a :: nax) -> List.length fs = List.length nax ->
  extendable m (nth a (shp x) 0) ->
  dwt_axes (f :: fs) m (a :: nax) x = dwt_axes [f] m [a] (dwt_axes fs m nax x).
Proof.
  intros Hg Hl He. destruct (good_cons _ _ _ Hg) as (Hna & Har & Hg').
  set (y := dwt_axes fs m nax x).
  assert (Hya : nth a (shp y) 0 = nth a (shp x) 0) by (unfold y, dwt_axes; rewrite shp_along; apply nth_upds_notin; exact Hna).
  unfold dwt_axes at 1 2. unfold along_axes. cbn [gather map]. rewrite Hya.
  assert (Hsh : upds (a :: nax) (map2 (fun f n => dwt_len (List.length f) n) (f :: fs) (nth a (shp x) 0 :: gather nax 0 (shp x))) (shp x)
     = upds [a] (map2 (fun f n => dwt_len (List.length f) n) [f] [nth a (shp x) 0]) (shp y)) by reflexivity.
  rewrite <- Hsh. change (ttag y) with (ttag x). apply make_ext. intros idx Hv. cbn [map gather].
  assert (Hli : List.length idx = rank x) by (apply valid_length in Hv; rewrite upds_length in Hv; exact Hv).
  unfold dwt_op. cbn [map sumI].
  apply sumf_ext. intros j Hj. cbn [taps map2]. rewrite ext_get1.
  set (z := (2 * Z.of_nat (nth a idx 0%nat) + 1 - Z.of_nat j)%Z).
  rewrite (sumI_ext _ _ (fun js => kmul (nth j f kzero) (match ext_idx m (nth a (shp x) 0) z with
     | Some i => kmul (taps fs js) (ext_get m (gather nax 0 (shp x)) (fun is => get x (upds (a :: nax) (i :: is) idx))
          (map2 (fun k j => (2 * Z.of_nat k + 1 - Z.of_nat j)%Z) (gather nax 0 idx) js)) | None => kzero end))).
  2:{ intros js Hjs. change (map (fun d : nat => nth d idx 0%nat) nax) with (gather nax 0 idx).
      change (map (fun d : nat => nth d (shp x) 0%nat) nax) with (gather nax 0 (shp x)).
      rewrite ext_get_cons. fold z. destruct (ext_idx m (nth a (shp x) 0) z); ring. }
  rewrite sumI_mul_l. replace (kmul (kmul (nth j f kzero) kone) _) with
    (kmul (nth j f kzero) (match ext_idx m (nth a (shp x) 0) z with Some i => get y (upds [a] [i] idx) | None => kzero end)) by ring.
  f_equal. destruct (ext_idx m (nth a (shp x) 0) z) as [i|] eqn:Ei.
  2:{ apply sumI_zero. intros; reflexivity. }
  assert (Hi : i < nth a (shp x) 0).
  { pose proof (ext_idxs_valid m [nth a (shp x) 0] [z] [i] eq_refl) as Hx. cbn [ext_idxs] in Hx. rewrite Ei in Hx.
    apply valid_cons_inv in Hx; [apply Hx|constructor; auto|reflexivity]. }
  unfold y, dwt_axes, along_axes. rewrite get_make.
  - unfold dwt_op.
    replace (gather nax 0 (upds [a] [i] idx)) with (gather nax 0 idx).
    2:{ symmetry. apply gather_upds_notin. intros d Hd [<-|[]]. exact (Hna Hd). }
    apply sumI_ext. intros js Hjs. f_equal. unfold ext_get. destruct (ext_idxs _ _ _) as [is|]; [|reflexivity].
    f_equal. cbn [upds]. symmetry. apply upds_updn_notin. exact Hna.
  - apply valid_intro; rewrite !upds_length; [exact Hli|]. intros d Hd. cbn [upds].
    destruct (Nat.eq_dec d a) as [->|Hne].
    + rewrite nth_updn_eq by lia. rewrite nth_upds_notin by exact Hna. exact Hi.
    + rewrite nth_updn_ne by exact Hne. assert (Hd' : nth d idx 0 < nth d (upds (a :: nax) (map2 (fun f n => dwt_len (List.length f) n) (f :: fs) (nth a (shp x) 0 :: gather nax 0 (shp x))) (shp x)) 0).
      { apply valid_nth; [exact Hv|]. rewrite upds_length. exact Hd. }
      cbn [upds map2] in Hd'. rewrite nth_updn_ne in Hd' by exact Hne. exact Hd'.
Qed.

(** * preprocessed tensors: the transformed axes are 1..N *)
Lemma upds_seq1 N vals b idx : List.length vals = N -> List.length idx = N -> upds (seq 1 N) vals (b :: idx) = b :: vals.
Proof.
  intros H1 H2. apply (nth_ext_len _ _ 0); [rewrite upds_length; cbn; lia|].
  intros i Hi. rewrite upds_length in Hi. cbn [List.length] in Hi. destruct i as [|i].
  - rewrite nth_upds_notin by (rewrite in_seq; lia). reflexivity.
  - cbn [nth].
    assert (Hg : gather (seq 1 N) 0 (upds (seq 1 N) vals (b :: idx)) = vals).
    { apply gather_upds; [apply seq_NoDup|rewrite seq_length; lia|]. intros d Hd. apply in_seq in Hd. cbn. lia. }
    rewrite <- Hg at 2. unfold gather. rewrite (nth_map_in _ _ _ 0) by (rewrite seq_length; lia).
    rewrite seq_nth by lia. reflexivity.
Qed.
Lemma gather_seq1 N b (l : list nat) : List.length l = N -> gather (seq 1 N) 0 (b :: l) = l.
Proof.
  intros H. apply (nth_ext_len _ _ 0); [rewrite gather_length, seq_length; lia|]. intros i Hi. rewrite gather_length, seq_length in Hi.
  unfold gather. rewrite (nth_map_in _ _ _ 0) by (rewrite seq_length; lia). rewrite seq_nth by lia. reflexivity.
Qed.

Lemma core_along osz op N t b s : shp t = b :: s -> List.length s = N -> List.length (osz s) = N -> op_ext s op ->
  along_axes osz op (seq 1 N) t = core osz op t.
Proof.
  intros Hs Hl Ho Hext. unfold along_axes, core. rewrite Hs. cbn [hd tl]. rewrite gather_seq1 by exact Hl.
  rewrite upds_seq1 by assumption. apply make_ext. intros idx Hv. destruct idx as [|i idx]; [inversion Hv|].
  apply valid_cons_inv in Hv as [Hi Hv]. assert (Hli : List.length idx = N) by (apply valid_length in Hv; lia).
  cbn [hd tl]. rewrite gather_seq1 by exact Hli. apply Hext; [lia|]. intros is His. apply valid_length in His.
  rewrite upds_seq1 by lia. reflexivity.
Qed.

Lemma good_seq1 N : good_axes (S N) (seq 1 N).
Proof. split; [apply seq_NoDup|]. intros d Hd. apply in_seq in Hd. lia. Qed.

Lemma dwt_seq1_pre (fs : list (list K)) m L nax x N : wf x -> good_axes (rank x) nax -> 2 <= L -> List.length nax = N ->
  List.length fs = N -> Forall (fun f => List.length f = L) fs -> adm_axes m L nax (shp x) ->
  dwt_axes fs m (seq 1 N) (pre_t nax x) = pre_t nax (dwt_axes fs m nax x).
Proof.
  intros Hw Hg HL HN Hl Hf Ha. rewrite (dwt_axes_pre fs m L nax x) by (auto; lia).
  unfold core_dwt, dwt_axes. apply (core_along _ _ N _ (prodl (fsz nax (shp x))) (gather nax 0 (shp x))).
  - reflexivity.
  - rewrite gather_length. exact HN.
  - rewrite map2_length, gather_length. lia.
  - apply dwt_op_ext; [rewrite gather_length; lia|]. eapply Forall_impl; [|exact Ha]. intros n. apply adm_extendable. exact HL.
Qed.

Lemma approx_seq1_pre lo m L nax x N J : wf x -> good_axes (rank x) nax -> 2 <= L -> List.length nax = N ->
  List.length lo = L -> levels_axes m L J nax (shp x) ->
  approx lo m (seq 1 N) J (pre_t nax x) = pre_t nax (approx lo m nax J x).
Proof.
  intros Hw Hg HL HN Hl. induction J as [|J IH]; intros Hlev; [reflexivity|].
  rewrite !approx_S. rewrite IH.
  - rewrite seq_length, HN. apply (dwt_seq1_pre _ m L); auto.
    + apply approx_wf; exact Hw.
    + rewrite approx_rank. exact Hg.
    + apply repeat_length.
    + apply Forall_repeat. exact Hl.
    + apply (levels_axes_adm lo m L (S J)); auto.
  - unfold levels_axes in *. eapply Forall_impl; [|exact Hlev]. intros n H j Hj. apply H. lia.
Qed.

(** * keys *)
Lemma words_length n : forall key s, In s (words n key) -> String.length s = n + String.length key.
Proof.
  induction n as [|n IH]; intros key s H; cbn in H; [destruct H as [<-|[]]; reflexivity|].
  apply in_app_or in H as [H|H]; apply IH in H; rewrite H; cbn; lia.
Qed.
Lemma words_suffix n : forall key s, In s (words n key) -> exists p, s = append p key /\ String.length p = n.
Proof.
  induction n as [|n IH]; intros key s H; cbn in H; [destruct H as [<-|[]]; exists EmptyString; auto|].
  assert (G : forall c q k, append (append q (String c EmptyString)) k = append q (String c k)).
  { intros c q k. induction q as [|b q IHq]; cbn; [reflexivity|]. rewrite IHq. reflexivity. }
  assert (Hq : forall q c, String.length (append q (String c EmptyString)) = S (String.length q)).
  { induction q as [|b q IHq]; intros c; cbn; [reflexivity|]. rewrite IHq. reflexivity. }
  apply in_app_or in H as [H|H]; apply IH in H as (q & -> & Hl); eexists (append q (String _ EmptyString)); rewrite G, Hq; split; eauto.
Qed.
Lemma append_inj_len : forall (p q k l : string), String.length p = String.length q -> append p k = append q l -> p = q /\ k = l.
Proof.
  induction p as [|c p IH]; intros [|d q] k l Hl H; cbn in *; try discriminate; [auto|].
  injection H as -> H. apply IH in H as [-> ->]; auto.
Qed.
Lemma words_NoDup n : forall key, NoDup (words n key).
Proof.
  induction n as [|n IH]; intros key; cbn; [constructor; [intros []|constructor]|].
  assert (G : forall s, In s (words n (String "a" key)) -> ~ In s (words n (String "d" key))).
  { intros s H1 H2. apply words_suffix in H1 as (p & -> & H1). apply words_suffix in H2 as (q & H2 & H3).
    apply append_inj_len in H2 as [_ H2]; [discriminate|lia]. }
  generalize (IH (String "a" key)) (IH (String "d" key)). revert G. generalize (words n (String "a" key)), (words n (String "d" key)).
  intros l1 l2 G H1 H2. induction H1 as [|a l1 Ha H1 IH1]; cbn; [exact H2|]. constructor.
  - rewrite in_app_iff. intros [H|H]; [tauto|]. apply (G a); [now left|exact H].
  - apply IH1. intros s Hs. apply G. now right.
Qed.
(** all words over {a,d} *)
Lemma words_spec n : forall key s, ad_word key -> (In s (words n key) <-> exists p, s = append p key /\ String.length p = n /\ ad_word p).
Proof.
  induction n as [|n IH]; intros key s Hk.
  - cbn. split.
    + intros [<-|[]]. exists EmptyString. repeat split. constructor.
    + intros (p & -> & Hp & _). destruct p; [left; reflexivity|discriminate].
  - cbn [words]. rewrite in_app_iff.
    assert (Ka : ad_word (String "a" key)) by (constructor; [left; reflexivity|exact Hk]).
    assert (Kd : ad_word (String "d" key)) by (constructor; [right; reflexivity|exact Hk]).
    rewrite (IH _ s Ka), (IH _ s Kd).
    assert (G : forall c q k, append (append q (String c EmptyString)) k = append q (String c k)).
    { intros c q k. induction q as [|b q IHq]; cbn; [reflexivity|]. rewrite IHq. reflexivity. }
    assert (Hq : forall q c, String.length (append q (String c EmptyString)) = S (String.length q)).
    { induction q as [|b q IHq]; intros c; cbn; [reflexivity|]. rewrite IHq. reflexivity. }
    assert (Had : forall q c, (c = "a"%char \/ c = "d"%char) -> ad_word q -> ad_word (append q (String c EmptyString))).
    { intros q c Hc. induction q as [|b q IHq]; intros H; [constructor; [exact Hc|constructor]|]. inversion H; subst. constructor; [assumption|]. apply IHq. assumption. }
    split.
    + intros [(p & -> & Hp & Ha)|(p & -> & Hp & Ha)]; eexists (append p (String _ EmptyString)); rewrite G, Hq; (split; [reflexivity|]); (split; [lia|]); apply Had; auto.
    + intros (p & -> & Hp & Ha).
      assert (Hl : exists q c, p = append q (String c EmptyString) /\ (c = "a"%char \/ c = "d"%char) /\ ad_word q /\ String.length q = n).
      { clear -Hp Ha. revert n Hp. induction p as [|c p IHp]; intros n Hp; [discriminate|].
        inversion Ha as [|? ? Hc Ha']; subst. destruct p as [|b p].
        - exists EmptyString, c. split; [reflexivity|]. split; [exact Hc|]. split; [constructor|]. cbn in *. lia.
        - destruct (IHp Ha' (n - 1)) as (q & e & E & He & Hq & Hlq); [cbn in *; lia|].
          exists (String c q), e. rewrite E. split; [reflexivity|]. split; [exact He|]. split; [constructor; assumption|]. cbn in *. lia. }
      destruct Hl as (q & c & -> & [-> | ->] & Hq' & Hlq); rewrite G; [left|right]; exists q; auto.
Qed.
Lemma words_hd n : forall key, exists r, words n key = append (akey n) key :: r.
Proof.
  induction n as [|n IH]; intros key; [exists []; reflexivity|]. cbn [words]. destruct (IH (String "a" key)) as (r & ->).
  eexists. cbn [app]. f_equal. unfold akey. cbn [repeat string_of_list_ascii].
  clear. induction n as [|n IHn]; cbn; [reflexivity|]. f_equal. exact IHn.
Qed.
Lemma append_nil s : append s EmptyString = s.
Proof. induction s as [|c s IH]; cbn; [reflexivity|]. rewrite IH. reflexivity. Qed.

(** * dictionaries *)
Lemma dict_set_new (d : sdict (K := K)) k v : ~ In k (map fst d) -> dict_set d k v = d ++ [(k, v)].
Proof.
  induction d as [|[k' v'] d IH]; cbn; intros H; [reflexivity|].
  destruct (String.eqb_spec k' k) as [->|_]; [tauto|]. rewrite IH by tauto. reflexivity.
Qed.

(** * one analysis level *)
Lemma key_filters_cons lo hi c s : key_filters (K := K) lo hi (String c s) = (if Ascii.eqb c "d" then hi else lo) :: key_filters lo hi s.
Proof. reflexivity. Qed.
Lemma key_filters_length lo hi s : List.length (key_filters (K := K) lo hi s) = String.length s.
Proof. induction s as [|c s IH]; cbn; [reflexivity|]. f_equal. exact IH. Qed.
Lemma key_filters_len lo hi L s : List.length lo = L -> List.length hi = L -> Forall (fun f => List.length f = L) (key_filters (K := K) lo hi s).
Proof. intros H1 H2. unfold key_filters. apply Forall_forall. intros f Hf. apply in_map_iff in Hf as (c & <- & _). destruct (Ascii.eqb c "d"); assumption. Qed.

Lemma levels_ok_1 m L n : levels_ok m L 1 n <-> admissible m L n.
Proof. split; [intros H; apply (H 0); lia|]. intros H j Hj. replace j with 0 by lia. exact H. Qed.

Lemma sep_dwtn_cases todo : forall d A w m L key N, wf A -> rank A = S N -> is_dtype_supported (tdtype A) = true ->
  List.length (dec_lo w) = L -> List.length (dec_hi w) = L -> 2 <= L -> Nat.even L = true ->
  String.length key + todo = N -> adm_axes m L (seq (S todo) (N - todo)) (shp A) ->
  (forall k, In k (words todo key) -> ~ In k (map fst d)) ->
  match sep_dwtn todo d (dwt_axes (key_filters (dec_lo w) (dec_hi w) key) m (seq (S todo) (N - todo)) A) w (Some (mode_name m)) key with
  | Ok d' => adm_axes m L (seq 1 N) (shp A) /\
      d' = d ++ map (fun k => (k, dwt_axes (key_filters (dec_lo w) (dec_hi w) k) m (seq 1 N) A)) (words todo key)
  | Raise e => ~ adm_axes m L (seq 1 N) (shp A) /\ (sizes_pos (seq 1 N) (shp A) -> e = RuntimeError)
  end.
Proof.
  induction todo as [|todo IH]; intros d A w m L key N Hw Hr Hd H1 H2 HL He Hk Hadm Hfresh.
  - cbn [sep_dwtn words map]. replace (N - 0) with N in * by lia. split; [exact Hadm|]. apply dict_set_new. apply Hfresh. now left.
  - cbn [sep_dwtn]. set (X := dwt_axes _ m (seq (S (S todo)) _) A).
    assert (HrX : rank X = S N) by (unfold X, dwt_axes; rewrite rank_along; exact Hr).
    assert (HwX : wf X) by apply wf_make.
    set (ax := (- Z.of_nat (String.length key + 1))%Z).
    assert (Hax : axis_ok (rank X) ax) by (unfold axis_ok, ax; rewrite HrX; lia).
    assert (Hna : norm_axis (rank X) ax = S todo).
    { unfold norm_axis, ax. rewrite HrX. destruct (Z.ltb_spec (- Z.of_nat (String.length key + 1)) 0); lia. }
    assert (HnX : nth (S todo) (shp X) 0 = nth (S todo) (shp A) 0).
    { unfold X, dwt_axes. rewrite shp_along. apply nth_upds_notin. rewrite in_seq. lia. }
    assert (HdX : is_dtype_supported (tdtype X) = true) by exact Hd.
    pose proof (wavedec_dich X w m L 1 (Some 1%Z) ax HwX HdX Hax H1 H2 HL He) as Hdich. cbv zeta in Hdich. rewrite Hna in Hdich. specialize (Hdich eq_refl).
    destruct (wavedec X w (Some (mode_name m)) (Some 1%Z) ax) as [c|e] eqn:Ew.
    2:{ cbn [rbind]. split.
        - intros Ha. assert (Hok : levels_ok m L 1 (nth (S todo) (shp X) 0)).
          { apply levels_ok_1. rewrite HnX. unfold adm_axes in Ha. rewrite Forall_forall in Ha. apply Ha. unfold gather. apply in_map_iff. exists (S todo). split; [reflexivity|apply in_seq; lia]. }
          rewrite <- Hna in Hok. rewrite (wavedec_ok X w m L 1 (Some 1%Z) ax HwX HdX Hax H1 H2 HL He eq_refl Hok) in Ew. discriminate.
        - intros Hpos. apply Hdich. rewrite HnX. unfold sizes_pos in Hpos. rewrite Forall_forall in Hpos. apply Hpos. unfold gather. apply in_map_iff. exists (S todo). split; [reflexivity|apply in_seq; lia]. }
    pose proof Hdich as Hok. rewrite <- Hna in Hok. rewrite (wavedec_ok X w m L 1 (Some 1%Z) ax HwX HdX Hax H1 H2 HL He eq_refl Hok) in Ew.
    injection Ew as <-. rewrite Hna. cbn [rbind pc_items]. unfold wavedec_spec. cbn [seq rev app map]. unfold detail, approx. cbn [Nat.iter nat_rect List.length repeat Nat.sub].
    rewrite HnX in Hdich. apply levels_ok_1 in Hdich.
    assert (Hg : good_axes (rank A) (S todo :: seq (S (S todo)) (N - S todo))).
    { rewrite Hr. split; [|intros q [<-|Hq]; [lia|]; apply in_seq in Hq; lia]. constructor; [rewrite in_seq; lia|apply seq_NoDup]. }
    assert (Hseq : S todo :: seq (S (S todo)) (N - S todo) = seq (S todo) (N - todo)).
    { replace (N - todo) with (S (N - S todo)) by lia. reflexivity. }
    assert (Hadm' : adm_axes m L (seq (S todo) (N - todo)) (shp A)).
    { rewrite <- Hseq. unfold adm_axes. cbn [gather map]. constructor; assumption. }
    assert (Hcomp : forall c, dwt_axes [if Ascii.eqb c "d" then dec_hi w else dec_lo w] m [S todo] X
        = dwt_axes (key_filters (dec_lo w) (dec_hi w) (String c key)) m (seq (S todo) (N - todo)) A).
    { intros c. rewrite key_filters_cons, <- Hseq. symmetry. apply dwt_axes_cons; auto.
      - rewrite key_filters_length, seq_length. lia.
      - apply (adm_extendable m L); assumption. }
    pose proof (Hcomp "a"%char) as Ca. pose proof (Hcomp "d"%char) as Cd. cbn [Ascii.eqb Bool.eqb] in Ca, Cd. rewrite Ca, Cd.
    assert (Hfa : forall k, In k (words todo (String "a" key)) -> ~ In k (map fst d)) by (intros k Hkk; apply Hfresh; cbn; apply in_or_app; auto).
    pose proof (IH d A w m L (String "a" key) N Hw Hr Hd H1 H2 HL He ltac:(cbn; lia) Hadm' Hfa) as Ia.
    destruct (sep_dwtn todo d _ w _ (String "a" key)) as [d1|e]; [|exact Ia]. cbn [rbind]. destruct Ia as [Hall ->].
    assert (Hfd : forall k, In k (words todo (String "d" key)) -> ~ In k (map fst (d ++ map (fun k => (k, dwt_axes (key_filters (dec_lo w) (dec_hi w) k) m (seq 1 N) A)) (words todo (String "a" key))))).
    { intros k Hkk. rewrite map_app, in_app_iff, map_map. cbn [fst]. rewrite map_id. intros [H|H].
      - revert H. apply Hfresh. cbn. apply in_or_app. auto.
      - apply words_suffix in Hkk as (p & -> & Hp). apply words_suffix in H as (q & H & Hq). apply append_inj_len in H as [_ H]; [discriminate|lia]. }
    match goal with |- context [sep_dwtn todo ?d1 _ w _ (String "d" key)] =>
      pose proof (IH d1 A w m L (String "d" key) N Hw Hr Hd H1 H2 HL He ltac:(cbn; lia) Hadm' Hfd) as Id end.
    destruct (sep_dwtn todo _ _ w _ (String "d" key)) as [d2|e]; [|exact Id]. destruct Id as [_ ->]. split; [exact Hall|].
    cbn [words]. rewrite map_app, app_assoc. reflexivity.
Qed.

(** * the loop of _separable_conv_wavedecn *)
Lemma akey_length n : String.length (akey n) = n.
Proof. unfold akey. induction n as [|n IH]; cbn; [reflexivity|]. f_equal. exact IH. Qed.
Lemma key_filters_akey lo hi n : key_filters (K := K) lo hi (akey n) = repeat lo n.
Proof. unfold akey. induction n as [|n IH]; [reflexivity|]. cbn [repeat string_of_list_ascii]. rewrite key_filters_cons, IH. reflexivity. Qed.
Lemma words_cons n : words n EmptyString = akey n :: detail_keys n.
Proof. unfold detail_keys. destruct (words_hd n EmptyString) as (r & E). rewrite append_nil in E. rewrite E. reflexivity. Qed.

Lemma sep_loop_cases J : forall A w m L N acc, wf A -> rank A = S N -> is_dtype_supported (tdtype A) = true -> 
  List.length (dec_lo w) = L -> List.length (dec_hi w) = L -> 2 <= L -> Nat.even L = true ->
  match sep_loop J N w (Some (mode_name m)) A acc with
  | Ok r => levels_axes m L J (seq 1 N) (shp A) /\
      r = (approx (dec_lo w) m (seq 1 N) J A, acc ++ map (fun j => detailsN (dec_lo w) (dec_hi w) m (seq 1 N) j A) (seq 1 J))
  | Raise e => ~ levels_axes m L J (seq 1 N) (shp A) /\ (sizes_pos (seq 1 N) (shp A) -> e = RuntimeError)
  end.
Proof.
  induction J as [|J IH]; intros A w m L N acc Hw Hr Hd H1 H2 HL He.
  - cbn. rewrite app_nil_r. split; [|reflexivity]. unfold levels_axes. apply Forall_forall. intros n _ j Hj. lia.
  - cbn [sep_loop]. rewrite Hr. replace (S N - 1) with N by lia.
    assert (Hg : good_axes (rank A) (seq 1 N)) by (rewrite Hr; apply good_seq1).
    pose proof (sep_dwtn_cases N [] A w m L EmptyString N Hw Hr Hd H1 H2 HL He eq_refl) as Hc.
    rewrite Nat.sub_diag in Hc. cbn [seq] in Hc. specialize (Hc (Forall_nil _) ltac:(intros k _ [])).
    assert (E0 : dwt_axes (key_filters (dec_lo w) (dec_hi w) EmptyString) m [] A = A).
    { unfold dwt_axes, along_axes. cbn. rewrite <- (make_get A Hw) at 3. apply make_ext. intros idx _. unfold dwt_op. cbn. unfold ext_get. cbn. ring. }
    rewrite E0 in Hc.
    assert (Hlev : levels_axes m L (S J) (seq 1 N) (shp A) <-> adm_axes m L (seq 1 N) (shp A) /\
        levels_axes m L J (seq 1 N) (shp (dwt_axes (repeat (dec_lo w) N) m (seq 1 N) A))).
    { pose proof (levels_axes_S m L J (seq 1 N) A (dec_lo w) H1 Hg) as G. rewrite seq_length in G. exact G. }
    destruct (sep_dwtn N [] A w _ EmptyString) as [d|e]; cbn [rbind].
    2:{ destruct Hc as [C1 C2]. split; [|exact C2]. intros Hl. apply C1. apply Hlev in Hl. apply Hl. }
    destruct Hc as [Hadm ->]. cbn [app]. rewrite words_cons. cbn [map]. unfold dict_pop. cbn [dict_get dict_del].
    rewrite String.eqb_refl. cbn [rbind fst snd]. rewrite key_filters_akey.
    set (A1 := dwt_axes (repeat (dec_lo w) N) m (seq 1 N) A) in *.
    match goal with |- context [sep_loop J N w _ A1 ?acc'] => specialize (IH A1 w m L N acc' (wf_make _ _ _)) end.
    assert (Hr1 : rank A1 = S N) by (unfold A1, dwt_axes; rewrite rank_along; exact Hr).
    specialize (IH Hr1 Hd H1 H2 HL He).
    destruct (sep_loop J N w _ A1 _) as [r|e].
    + destruct IH as [I1 ->]. split; [apply Hlev; auto|]. f_equal.
      * rewrite approx_S', seq_length. reflexivity.
      * rewrite <- app_assoc. f_equal. cbn [seq map app]. apply (f_equal2 cons).
        { unfold detailsN. rewrite seq_length. reflexivity. }
        rewrite <- (seq_shift J 1), map_map. apply map_ext_in. intros j Hj. apply in_seq in Hj. unfold detailsN.
        rewrite seq_length. apply map_ext. intros k. f_equal. rewrite detail_S by lia. rewrite seq_length. reflexivity.
    + destruct IH as [I1 I2]. split; [tauto|]. intros Hp. apply I2.
      pose proof (sizes_pos_S m L (seq 1 N) A (dec_lo w) H1 HL Hg Hp) as G. rewrite seq_length in G. exact G.
Qed.

(** * fswavedecn *)
Definition fs_hint (h : axishint) (N : nat) : axishint :=
  match h with AxNone => AxSeq (map (fun i => (Z.of_nat i - Z.of_nat N)%Z) (seq 0 N)) | _ => h end.
Lemma fs_hint_axes h N axes : hint_axes h N = Some axes -> hint_axes (fs_hint h N) N = Some axes.
Proof.
  destruct h as [|a|l]; cbn [fs_hint]; auto. unfold hint_axes. destruct (Nat.ltb N 1); [discriminate|].
  rewrite map_length, seq_length, Nat.eqb_refl. auto.
Qed.

Lemma specN_tensors lo hi m L nax J x : wf x -> good_axes (rank x) nax -> List.length lo = L -> List.length hi = L ->
  forall t, In t (pc_tensors (wavedecn_spec lo hi m nax J x)) -> spec_ok nax x t.
Proof.
  intros Hw Hg H1 H2 t Ht. unfold pc_tensors, wavedecn_spec in Ht. cbn [pc_items flat_map pv_tensors app] in Ht.
  destruct Ht as [<-|Ht]; [apply approx_ok; assumption|].
  apply in_flat_map in Ht as (v & Hv & Ht). apply in_map_iff in Hv as (j & <- & _). cbn [pv_tensors] in Ht.
  unfold detailsN in Ht. rewrite map_map in Ht. cbn [snd] in Ht. apply in_map_iff in Ht as (k & <- & Hk).
  apply (detail_ok _ _ m L); auto.
  - rewrite key_filters_length. rewrite (words_length (List.length nax) EmptyString k); [cbn; lia|]. rewrite words_cons. now right.
  - apply key_filters_len; assumption.
Qed.
Lemma specN_regular lo hi m nax J x : pc_regular (K := K) (wavedecn_spec lo hi m nax J x).
Proof.
  unfold pc_regular, wavedecn_spec. cbn [pc_items pc_is_list]. split.
  - apply Forall_map, Forall_forall. intros j _. exact I.
  - destruct (rev (seq 1 J)); cbn; auto.
Qed.

Lemma sep_log2_default L n : sep_log2 L n = default_level L n.
Proof. reflexivity. Qed.
Lemma sep_level_val ns L : ns <> [] -> Forall (fun n => 0 < n) ns -> sep_level ns L = Ok (num_levels None L ns).
Proof.
  intros Hne Hp. unfold sep_level. destruct ns as [|n r]; [congruence|].
  replace (existsb (Nat.eqb 0) (n :: r)) with false; [reflexivity|]. symmetry. apply not_true_is_false. intros H. apply existsb_exists in H as (z & Hz & E).
  apply Nat.eqb_eq in E. subst z. rewrite Forall_forall in Hp. specialize (Hp 0 Hz). lia.
Qed.

Theorem fswavedecn_cases x w N m L level h axes : 1 <= N -> wf x -> is_dtype_supported (tdtype x) = true ->
  hint_axes h N = Some axes -> List.length axes = N -> axes_ok (rank x) axes ->
  List.length (dec_lo w) = L -> List.length (dec_hi w) = L -> 2 <= L -> Nat.even L = true ->
  let nax := map (norm_axis (rank x)) axes in
  let ns := gather nax 0 (shp x) in
  let J := num_levels level L ns in
  (level = None -> Forall (fun n => 0 < n) ns) ->
  match fswavedecn x w N (Some (mode_name m)) level h with
  | Ok c => levels_all m L J ns /\ c = wavedecn_spec (dec_lo w) (dec_hi w) m nax J x
  | Raise e => ~ levels_all m L J ns /\ (Forall (fun n => 0 < n) ns -> e = RuntimeError)
  end.
Proof.
  intros HN Hw Hd Hh Hla Hax H1 H2 HL He nax ns J Hnone.
  pose proof (good_axes_ok _ _ Hax) as Hg. fold nax in Hg.
  assert (Hn : List.length nax = N) by (unfold nax; rewrite map_length; exact Hla).
  unfold fswavedecn. change (match h with AxNone => _ | _ => _ end) with (fs_hint h N).
  rewrite (preprocess_tensor_ok x N (fs_hint h N) axes false) by (auto using fs_hint_axes; lia). cbn [rbind fst snd]. fold nax.
  set (A := pre_t nax x). fold ns.
  assert (Hs : shp A = prodl (fsz nax (shp x)) :: ns) by reflexivity.
  assert (HlN : List.length ns = N) by (unfold ns; rewrite gather_length; exact Hn).
  assert (HrA : rank A = S N) by (unfold rank; rewrite Hs; cbn; lia).
  assert (HwA : wf A) by (apply pre_t_wf; exact Hg).
  assert (Hgs : gather (seq 1 N) 0 (shp A) = ns) by (rewrite Hs; apply gather_seq1; exact HlN).
  unfold sep_wavedecn.
  assert (Hl : match level with Some l => Ok l | None => let* mm := sep_level (tl (shp A)) (get_len w) in Ok (Z.of_nat mm) end
     = Ok (match level with Some l => l | None => Z.of_nat J end)).
  { destruct level as [z|]; [reflexivity|]. rewrite Hs. cbn [tl]. unfold get_len. rewrite H1, sep_level_val; auto.
    intros E. rewrite E in HlN. cbn in HlN. lia. }
  rewrite Hl. cbn [rbind]. unfold range_level.
  replace (Z.to_nat (match level with Some l => l | None => Z.of_nat J end)) with J
    by (unfold J; destruct level; cbn [num_levels]; [reflexivity|lia]).
  rewrite HrA. replace (S N - 1) with N by lia.
  pose proof (sep_loop_cases J A w m L N [] HwA HrA Hd H1 H2 HL He) as Hc.
  unfold levels_axes, sizes_pos in Hc. rewrite Hgs in Hc.
  destruct (sep_loop J N w _ A []) as [r|e]; cbn [rbind]; [|exact Hc]. destruct Hc as [Hlev ->]. cbn [fst snd app].
  assert (E : mkPC false (PT (approx (dec_lo w) m (seq 1 N) J A) :: map PDict (rev (map (fun j => detailsN (dec_lo w) (dec_hi w) m (seq 1 N) j A) (seq 1 J))))
    = pc_map (pre_t nax) (wavedecn_spec (dec_lo w) (dec_hi w) m nax J x)).
  { unfold pc_map, wavedecn_spec. cbn [pc_is_list pc_items map pv_map].
    unfold A. rewrite (approx_seq1_pre _ m L nax x N J) by auto. f_equal. apply (f_equal (cons _)).
    rewrite <- map_rev, !map_map. apply map_ext_in. intros j Hj. apply in_rev, in_seq in Hj. cbn [pv_map]. f_equal.
    unfold detailsN. rewrite seq_length, Hn, map_map. apply map_ext_in. intros k Hk. cbn [fst snd]. f_equal.
    unfold detail. rewrite (approx_seq1_pre _ m L nax x N (j - 1)); auto.
    - apply (dwt_seq1_pre _ m L); auto; [apply approx_wf; exact Hw|rewrite approx_rank; exact Hg| |apply key_filters_len; assumption|apply (levels_axes_adm _ m L J); auto; lia].
      rewrite key_filters_length, (words_length N EmptyString k); [cbn; lia|]. rewrite words_cons. now right.
    - unfold levels_axes. eapply Forall_impl; [|exact Hlev]. intros n H i Hi. apply H. lia. }
  match goal with |- context [postprocess_coeffs ?c N _ _] => replace c with (pc_map (pre_t nax) (wavedecn_spec (dec_lo w) (dec_hi w) m nax J x)) by (symmetry; exact E) end. unfold nax.
  rewrite (post_container _ N (fs_hint h N) axes (rank x)); auto using specN_regular, fs_hint_axes.
  - fold nax. rewrite fsz_length by exact Hg. rewrite Hn. reflexivity.
  - intros t Ht. fold nax. destruct (specN_tensors _ _ m L nax J x Hw Hg H1 H2 t Ht) as (T1 & T2 & T3 & _). auto.
Qed.

Theorem fswavedecn_inv x w N mo level h c : fswavedecn x w N mo level h = Ok c ->
  is_dtype_supported (tdtype x) = true /\ exists axes, hint_axes h N = Some axes /\ List.length axes = N /\ axes_ok (rank x) axes.
Proof.
  unfold fswavedecn. intros H. apply rbind_ok in H as (p & H & _).
  change (match h with AxNone => _ | _ => _ end) with (fs_hint h N) in H.
  apply preprocess_tensor_inv in H as (A & B & axes & Hh & Hl & Ha). split; [exact A|]. exists axes.
  split; [|auto]. destruct h as [|a|l]; cbn [fs_hint] in Hh; auto. unfold hint_axes in Hh |- *. destruct N as [|N].
  - exfalso. cbn in B. lia.
  - rewrite map_length, seq_length, Nat.eqb_refl in Hh. exact Hh.
Qed.

End SF.
