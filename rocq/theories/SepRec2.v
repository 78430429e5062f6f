(** Separable synthesis: the rounds of _separable_conv_idwtn compose to the n-d inverse transform. *)
From Coq Require Import List Arith ZArith Lia Bool String Ascii.
From Coq Require Import ZifyNat ZifyBool.
From Verif Require Import Base Sums Tensor TensorFacts Util Perm Plumb Accept Spec Spec2 SpecSep Conv1 PadFacts CoreFacts Analysis AnalysisInv PRKernel Synthesis Filters Wave1 Wave1Inv Rec1 Rec1Inv Lin Conv2 WaveN RecN Sep SepFacts SepRec.
Import ListNotations.
Ltac Zify.zify_post_hook ::= Z.div_mod_to_equations.

Section SR2.
Context {K : CRing}.
Add Ring Kring : (cr_th K).
Implicit Types t u x A B : tensor K.
Implicit Types w : wavelet K.
Implicit Types Y : string -> tensor K.

(** * sums over words *)
Fixpoint sumw (n : nat) (F : string -> K) : K :=
  match n with O => F EmptyString | S n' => sumw n' (fun s => kadd (F (String "a" s)) (F (String "d" s))) end.
Lemma sumw_ext n : forall (F G : string -> K), (forall s, ad_word s -> String.length s = n -> F s = G s) -> sumw n F = sumw n G.
Proof.
  induction n as [|n IH]; intros F G H; cbn [sumw]; [apply H; [constructor|reflexivity]|].
  apply IH. intros s Hs Hl. rewrite !H; try reflexivity; try (cbn; lia); constructor; auto.
Qed.
Lemma sumw_snoc n : forall (F : string -> K),
  sumw (S n) F = kadd (sumw n (fun s => F (append s "a"))) (sumw n (fun s => F (append s "d"))).
Proof.
  induction n as [|n IH]; intros F; [reflexivity|]. change (sumw (S (S n)) F) with (sumw (S n) (fun s => kadd (F (String "a" s)) (F (String "d" s)))).
  rewrite IH. reflexivity.
Qed.
Lemma append_assoc (a b c : string) : append (append a b) c = append a (append b c).
Proof. induction a as [|h a IH]; cbn; [reflexivity|]. rewrite IH. reflexivity. Qed.
Lemma sumL_words n : forall key (F : string -> K), sumL (words n key) F = sumw n (fun s => F (append s key)).
Proof.
  induction n as [|n IH]; intros key F; [cbn; ring|]. cbn [words]. rewrite sumL_app, !IH, sumw_snoc. f_equal; apply sumw_ext; intros s _ _; rewrite append_assoc; reflexivity.
Qed.
Lemma sumw_add n : forall (F G : string -> K), sumw n (fun s => kadd (F s) (G s)) = kadd (sumw n F) (sumw n G).
Proof. induction n as [|n IH]; intros F G; cbn [sumw]; [reflexivity|]. rewrite <- IH. apply sumw_ext. intros s _ _. ring. Qed.

(** * inverse transform of a family of coefficients indexed by words *)
Definition idwtW (L : nat) (rlo rhi : list K) (k : nat) (nax : list nat) Y (outs : list nat) : tensor K :=
  let A := Y (akey k) in
  tmake (ttag A) (upds nax outs (shp A))
    (fun idx => sumw k (fun s => idwt_op L (key_filters rlo rhi s) (gather nax 0 (shp A)) (fun is => get (Y s) (upds nax is idx)) (gather nax 0 idx))).

Lemma akey_ad n : ad_word (akey n).
Proof. unfold ad_word, akey. induction n as [|n IH]; cbn; constructor; auto. Qed.
Lemma ad_cons c s : ad_word (String c s) <-> (c = "a"%char \/ c = "d"%char) /\ ad_word s.
Proof. unfold ad_word. cbn [list_ascii_of_string]. split; [intros H; inversion H; auto|intros [H1 H2]; constructor; auto]. Qed.

Lemma idwtW_cons L rlo rhi k a nax o outs Y sh g :
  (forall s, ad_word s -> String.length s = S k -> shp (Y s) = sh /\ ttag (Y s) = g) -> good_axes (List.length sh) (a :: nax) ->
  idwtW L rlo rhi (S k) (a :: nax) Y (o :: outs) = idwtW L rlo rhi k nax (fun s => idwt1 L rlo rhi a (Y (String "a" s)) (Y (String "d" s)) o) outs.
Proof.
  intros HY Hg. destruct (good_cons _ _ _ Hg) as (Hna & Har & Hg'). unfold idwtW. cbv zeta.
  change (String "a" (akey k)) with (akey (S k)).
  destruct (HY (akey (S k)) (akey_ad _) (akey_length _)) as [E1 E2].
  assert (Es : shp (idwt1 L rlo rhi a (Y (akey (S k))) (Y (String "d" (akey k))) o) = updn a o sh) by (unfold idwt1, idwt_axes; rewrite shp_make, E1; reflexivity).
  assert (Et : ttag (idwt1 L rlo rhi a (Y (akey (S k))) (Y (String "d" (akey k))) o) = g) by exact E2.
  rewrite Es, Et, E1, E2. replace (upds nax outs (updn a o sh)) with (upds (a :: nax) (o :: outs) sh) by (cbn [upds]; symmetry; apply upds_updn_notin; exact Hna).
  apply make_ext. intros idx Hv. cbn [sumw]. apply sumw_ext. intros s Hs Hl.
  assert (Hli : List.length idx = List.length sh) by (apply valid_length in Hv; rewrite upds_length in Hv; exact Hv).
  assert (Hga : gather nax 0 (updn a o sh) = gather nax 0 sh).
  { change (updn a o sh) with (upds [a] [o] sh). apply gather_upds_notin. intros d Hd [<-|[]]. exact (Hna Hd). }
  rewrite Hga.
  assert (Ws : forall c, (c = "a"%char \/ c = "d"%char) -> shp (Y (String c s)) = sh).
  { intros c Hc. apply HY; [apply ad_cons; auto|cbn; lia]. }
  unfold idwt_op at 3.
  rewrite (sumI_ext _ _ (fun ks => sumf (nth a sh 0) (fun i =>
     kmul (kadd (kmul (get (Y (String "a" s)) (updn a i (upds nax ks idx))) (zget rlo (Z.of_nat (nth a idx 0%nat) + Z.of_nat L - 2 - 2 * Z.of_nat i)))
                (kmul (get (Y (String "d" s)) (updn a i (upds nax ks idx))) (zget rhi (Z.of_nat (nth a idx 0%nat) + Z.of_nat L - 2 - 2 * Z.of_nat i))))
     (tapsz (key_filters rlo rhi s) (map2 (fun o k => (Z.of_nat o + Z.of_nat L - 2 - 2 * Z.of_nat k)%Z) (gather nax 0 idx) ks))))).
  2:{ intros ks Hks. rewrite sumf_mul_r. f_equal. unfold idwt1, idwt_axes. rewrite get_make.
      - cbn [gather map]. rewrite Ws by auto. cbn [sumf]. unfold idwt_op. cbn [sumI]. rewrite sumf_add.
        replace (nth a (upds nax ks idx) 0) with (nth a idx 0) by (symmetry; apply nth_upds_notin; exact Hna).
        assert (G : forall (X : nat -> K) f, sumf (nth a sh 0) (fun i => kmul (X i) (tapsz [f] (map2 (fun o k => (Z.of_nat o + Z.of_nat L - 2 - 2 * Z.of_nat k)%Z) [nth a idx 0] [i])))
                = sumf (nth a sh 0) (fun i => kmul (X i) (zget f (Z.of_nat (nth a idx 0%nat) + Z.of_nat L - 2 - 2 * Z.of_nat i)))).
        { intros X f. apply sumf_ext. intros i _. cbn [map2 tapsz]. ring. }
        cbn [upds]. rewrite !G. ring.
      - rewrite Ws by auto. cbn [upds]. apply fib_valid; [apply Hg'| | |rewrite Hga; exact Hks].
        + intros d Hd. rewrite updn_length. apply Hg'. exact Hd.
        + split; [rewrite updn_length; exact Hli|]. intros d Hd Hdn. rewrite updn_length in Hd.
          pose proof (valid_nth _ _ d Hv) as Hvd. rewrite upds_length in Hvd. specialize (Hvd Hd). cbn [upds] in Hvd.
          destruct (Nat.eq_dec d a) as [->|Hne]; [rewrite nth_updn_eq in Hvd |- * by (rewrite ?upds_length; exact Hd); exact Hvd|].
          rewrite nth_updn_ne in Hvd |- * by exact Hne. rewrite nth_upds_notin in Hvd by exact Hdn. exact Hvd. }
  rewrite (sumI_sumf_swap (gather nax 0 sh) (nth a sh 0)).
  rewrite !key_filters_cons. cbn [Ascii.eqb Bool.eqb gather map]. unfold idwt_op. cbn [sumI]. rewrite <- sumf_add.
  apply sumf_ext. intros i Hi. change (map (fun d : nat => nth d sh 0) nax) with (gather nax 0 sh). rewrite <- sumI_add. apply sumI_ext. intros ks Hks. cbn [map2 tapsz upds].
  change (map (fun d : nat => nth d idx 0%nat) nax) with (gather nax 0 idx). ring.
Qed.

(** ... is the sum over channels in the order of [words] *)
Definition chansW (N : nat) (rlo rhi : list K) : list (list (list K)) := map (key_filters rlo rhi) (words N EmptyString).
Lemma idwtW_N L rlo rhi N nax Y outs : 
  idwtW L rlo rhi N nax Y outs = idwtN L (chansW N rlo rhi) nax (Y (akey N)) (map Y (detail_keys N)) outs.
Proof.
  unfold idwtW, idwtN, idwt_axes. cbn [nth]. apply make_ext. intros idx _.
  transitivity (sumL (words N EmptyString) (fun s => idwt_op L (key_filters rlo rhi s) (gather nax 0 (shp (Y (akey N)))) (fun is => get (Y s) (upds nax is idx)) (gather nax 0 idx))).
  - rewrite sumL_words. apply sumw_ext. intros s _ _. rewrite append_nil. reflexivity.
  - rewrite <- (sumf_nth_sumL _ (akey N)). unfold chansW. rewrite map_length. apply sumf_ext. intros c Hc.
    rewrite (nth_indep _ [] (key_filters rlo rhi (akey N))) by (rewrite map_length; exact Hc). rewrite map_nth. f_equal.
    assert (E : nth c (Y (akey N) :: map Y (detail_keys N)) (Y (akey N)) = Y (nth c (words N EmptyString) (akey N))).
    { change (Y (akey N) :: map Y (detail_keys N)) with (map Y (akey N :: detail_keys N)). rewrite <- (words_cons N). apply map_nth. }
    rewrite <- E. reflexivity.
Qed.

(** * dictionaries *)
Lemma dict_get_set (d : sdict (K := K)) k v k' : dict_get (dict_set d k v) k' = if String.eqb k k' then Some v else dict_get d k'.
Proof.
  induction d as [|[q u] d IH]; cbn; [reflexivity|]. destruct (String.eqb_spec q k) as [->|Hq]; cbn.
  - destruct (String.eqb_spec k k'); reflexivity.
  - rewrite IH. destruct (String.eqb_spec q k') as [->|]; [|reflexivity]. destruct (String.eqb_spec k k'); [congruence|reflexivity].
Qed.
Lemma dict_set_keys (d : sdict (K := K)) k v q : In q (map fst (dict_set d k v)) <-> q = k \/ In q (map fst d).
Proof.
  induction d as [|[p u] d IH]; cbn; [intuition congruence|]. destruct (String.eqb_spec p k) as [->|Hq]; cbn; [intuition congruence|].
  rewrite IH. intuition congruence.
Qed.
Lemma dict_get_in (d : sdict (K := K)) k v : dict_get d k = Some v -> In k (map fst d).
Proof. induction d as [|[q u] d IH]; cbn; [discriminate|]. destruct (String.eqb_spec q k); auto. Qed.
Lemma dict_get_key (d : sdict (K := K)) k : In k (map fst d) -> exists v, dict_get d k = Some v.
Proof. induction d as [|[q u] d IH]; cbn; [tauto|]. destruct (String.eqb_spec q k); [eauto|]. intros [H|H]; [congruence|auto]. Qed.

(** the dictionary holds Y s under every word s of length k, and nothing else *)
Definition holds (k : nat) Y (d : sdict (K := K)) : Prop :=
  (forall s, ad_word s -> String.length s = k -> dict_get d s = Some (Y s)) /\
  (forall s, In s (map fst d) -> ad_word s /\ String.length s = k).

Lemma a_keys_ok k Y d : 1 <= k -> holds k Y d -> exists ks, a_keys d = Ok ks /\
  (forall s, In s ks <-> exists s', s = String "a" s' /\ ad_word s' /\ String.length s' = k - 1).
Proof.
  intros Hk [H1 H2]. unfold a_keys.
  assert (Hr : rmap (fun kv => let* b := starts_a (fst kv) in Ok (fst kv, b)) d
     = Ok (map (fun kv => (fst kv, match fst kv with String c _ => Ascii.eqb c "a" | _ => false end)) d)).
  { assert (Hne : forall s, In s (map fst d) -> s <> EmptyString).
    { intros s Hs ->. apply H2 in Hs as [_ Hs]. cbn in Hs. lia. }
    clear H1 H2. induction d as [|[q u] d IH]; [reflexivity|]. cbn [rmap map fst]. destruct q as [|c q]; [exfalso; apply (Hne EmptyString); [now left|reflexivity]|].
    cbn [starts_a rbind]. rewrite IH; [reflexivity|]. intros s Hs. apply Hne. now right. }
  rewrite Hr. cbn [rbind]. eexists. split; [reflexivity|]. intros s. rewrite in_map_iff. split.
  - intros ((q & b) & Hq & Hin). cbn in Hq. subst q. apply filter_In in Hin as [Hin Hb]. cbn in Hb. subst b.
    apply in_map_iff in Hin as ((q & u) & E & Hin). cbn [fst] in E. injection E as -> E.
    destruct s as [|c s]; [discriminate|]. apply Ascii.eqb_eq in E. subst c.
    destruct (H2 (String "a" s)) as [Hw Hl]; [apply in_map_iff; exists (String "a" s, u); auto|].
    exists s. apply ad_cons in Hw as [_ Hw]. cbn in Hl. split; [reflexivity|]. split; [exact Hw|lia].
  - intros (s' & -> & Hw & Hl). exists (String "a" s', true). split; [reflexivity|]. apply filter_In. split; [|reflexivity].
    assert (Hg : dict_get d (String "a" s') = Some (Y (String "a" s'))) by (apply H1; [apply ad_cons; auto|cbn; lia]).
    apply dict_get_in in Hg. apply in_map_iff in Hg as (kv & E & Hin). apply in_map_iff. exists kv. rewrite E. auto.
Qed.

(** one round *)
Lemma round_ok k Yd Y' d w : 1 <= k -> holds k Yd d ->
  (forall s, ad_word s -> String.length s = k - 1 -> sep_idwt_pair w k (Yd (String "a" s)) (Yd (String "d" s)) = Ok (Y' s)) ->
  exists ks, a_keys d = Ok ks /\
  match k with
  | 1 => sep_idwtn_loop d w ks [] = Ok (inl (Y' EmptyString))
  | _ => exists d', sep_idwtn_loop d w ks [] = Ok (inr d') /\ holds (k - 1) Y' d'
  end.
Proof.
  intros Hk Hh Hp. destruct (a_keys_ok k Yd d Hk Hh) as (ks & Ha & Hks). exists ks. split; [exact Ha|]. destruct Hh as [H1 H2].
  destruct (Nat.eq_dec k 1) as [->|Hk1].
  - destruct ks as [|q ks]; [exfalso; apply (proj2 (Hks "a"%string)); exists EmptyString; repeat split; constructor|].
    destruct (proj1 (Hks q) (or_introl eq_refl)) as (s' & -> & Hw & Hl). destruct s' as [|]; [|discriminate].
    cbn [sep_idwtn_loop tails_key]. rewrite (H1 "d"%string) by (try reflexivity; apply ad_cons; auto). rewrite (H1 "a"%string) by (try reflexivity; apply ad_cons; auto).
    cbn [String.length]. rewrite (Hp EmptyString Hw eq_refl). reflexivity.
  - assert (G : forall ks done, (forall s, In s ks -> exists s', s = String "a" s' /\ ad_word s' /\ String.length s' = k - 1) ->
       (forall s v, dict_get done s = Some v -> v = Y' s) -> (forall s, In s (map fst done) -> ad_word s /\ String.length s = k - 1) ->
       exists d', sep_idwtn_loop d w ks done = Ok (inr d') /\ (forall s v, dict_get d' s = Some v -> v = Y' s) /\
         (forall s, In s (map fst d') -> ad_word s /\ String.length s = k - 1) /\
         (forall s, In s (map fst d') <-> In s (map fst done) \/ In (String "a" s) ks)).
    { clear ks Ha Hks. induction ks as [|q ks IH]; intros done Hks D1 D2.
      - exists done. cbn. repeat split; auto; try (apply D2; assumption). tauto.
      - destruct (Hks q (or_introl eq_refl)) as (s' & -> & Hw & Hl). cbn [sep_idwtn_loop tails_key].
        rewrite (H1 (String "d" s')) by (try (apply ad_cons; auto); cbn; lia). rewrite (H1 (String "a" s')) by (try (apply ad_cons; auto); cbn; lia).
        cbn [String.length]. replace (S (String.length s')) with k by lia. rewrite (Hp s' Hw Hl). cbn [rbind].
        destruct s' as [|c s2] eqn:Es; [exfalso; cbn in Hl; lia|]. rewrite <- Es in *.
        destruct (IH (dict_set done s' (Y' s'))) as (d' & I1 & I2 & I3 & I4).
        + intros s Hs. apply Hks. now right.
        + intros s v. rewrite dict_get_set. destruct (String.eqb_spec s' s) as [<-|]; [congruence|apply D1].
        + intros s Hs. apply dict_set_keys in Hs as [->|Hs]; auto.
        + exists d'. split; [exact I1|]. split; [exact I2|]. split; [exact I3|]. intros s. rewrite I4, dict_set_keys. cbn [In].
          split; [intros [[->|H]|H]; auto|intros [H|[H|H]]; auto; injection H as ->; auto]. }
    destruct (G ks []) as (d' & G1 & G2 & G3 & G4).
    + intros s Hs. apply Hks. exact Hs.
    + intros s v H. discriminate.
    + intros s [].
    + assert (Hhold : holds (k - 1) Y' d').
      { split; [|exact G3]. intros s Hw Hl. assert (Hin : In s (map fst d')).
        { apply G4. right. apply Hks. exists s. auto. }
        apply dict_get_key in Hin as (v & Hv). rewrite Hv, (G2 s v Hv). reflexivity. }
      destruct k as [|[|k]]; [lia|lia|]. exists d'. auto.
Qed.

(** all rounds: the result is the n-d inverse transform of the k axes n-k+1 .. n *)
Lemma slice_to_id t : wf t -> slice_to t (shp t) = Ok t.
Proof.
  intros Hw. unfold slice_to. destruct (Nat.ltb_spec (rank t) (List.length (shp t))) as [H|_]; [unfold rank in H; lia|].
  f_equal. rewrite skipn_all, app_nil_r. replace (map2 Nat.min (shp t) (shp t)) with (shp t); [apply make_get; exact Hw|].
  generalize (shp t). induction l as [|n l IH]; cbn; [reflexivity|]. rewrite Nat.min_id. f_equal. exact IH.
Qed.

Lemma sep_idwtn_ok k : forall Yd Y d w L N g sh fuel, 1 <= k <= N -> k <= fuel -> holds k Yd d ->
  (forall s, ad_word s -> String.length s = k -> wf (Y s) /\ shp (Y s) = sh /\ ttag (Y s) = g) ->
  (forall s, ad_word s -> String.length s = k - 1 -> Yd (String "d" s) = Y (String "d" s) /\ slice_to (Yd (String "a" s)) sh = Ok (Y (String "a" s))) ->
  List.length sh = S N -> is_dtype_supported (fst g) = true ->
  List.length (rec_lo w) = L -> List.length (rec_hi w) = L -> 2 <= L ->
  Forall (fun n => 1 <= n) (gather (seq (S N - k) k) 0 sh) ->
  sep_idwtn fuel d w = Ok (idwtW L (rec_lo w) (rec_hi w) k (seq (S N - k) k) Y (map (fun n => 2 * n + 2 - L) (gather (seq (S N - k) k) 0 sh))).
Proof.
  induction k as [|k IH]; intros Yd Y d w L N g sh fuel Hk Hf Hh HY HYd Hsh Hd H1 H2 HL Hpos; [lia|].
  destruct fuel as [|fuel]; [lia|]. cbn [sep_idwtn]. set (a := S N - S k).
  assert (Hseq : seq a (S k) = a :: seq (S N - k) k) by (cbn [seq]; f_equal; f_equal; lia).
  fold a in Hpos. rewrite Hseq in Hpos |- *. cbn [gather map] in Hpos |- *. inversion Hpos as [|? ? Hp1 Hp2]; subst. set (L := List.length (rec_lo w)) in *.
  set (o := 2 * nth a sh 0 + 2 - L).
  set (Y' := fun s => idwt1 L (rec_lo w) (rec_hi w) a (Y (String "a" s)) (Y (String "d" s)) o).
  destruct (round_ok (S k) Yd Y' d w ltac:(lia) Hh) as (ks & Ha & Hround).
  { intros s Hw Hl. rewrite Nat.sub_succ, Nat.sub_0_r in Hl.
    assert (Wa : ad_word (String "a" s)) by (apply ad_cons; auto). assert (Wd : ad_word (String "d" s)) by (apply ad_cons; auto).
    destruct (HY _ Wa ltac:(cbn; lia)) as (A1 & A2 & A3). destruct (HY _ Wd ltac:(cbn; lia)) as (D1 & D2 & D3).
    destruct (HYd s Hw ltac:(lia)) as [E1 E2]. rewrite E1.
    rewrite (sep_pair_ok w L (S k) a (Yd (String "a" s)) (Y (String "a" s)) (Y (String "d" s))); try assumption; try congruence; auto;
      try (rewrite D2; reflexivity); try (unfold tdtype; rewrite A3; exact Hd);
      try (unfold rank; rewrite D2, Hsh; lia); try (rewrite D2; exact Hp1). }
  rewrite Ha. cbn [rbind].
  assert (Hg : good_axes (List.length sh) (a :: seq (S N - k) k)).
  { rewrite <- Hseq, Hsh. split; [apply seq_NoDup|]. intros q Hq. apply in_seq in Hq. unfold a in Hq. lia. }
  fold (gather (seq (S N - k) k) 0 sh) in Hp2. change (map (fun d0 : nat => nth d0 sh 0) (seq (S N - k) k)) with (gather (seq (S N - k) k) 0 sh).
  rewrite (idwtW_cons L (rec_lo w) (rec_hi w) k a (seq (S N - k) k) o _ Y sh g); [|intros s Hw Hl; destruct (HY s Hw Hl) as (_ & ? & ?); auto|exact Hg].
  fold Y'. destruct k as [|k].
  - rewrite Hround. cbn [rbind]. f_equal. unfold idwtW. cbn [seq gather map upds sumw akey repeat string_of_list_ascii].
    rewrite <- (make_get (Y' EmptyString)) at 1 by apply wf_make. apply make_ext. intros idx _. unfold idwt_op. cbn. ring.
  - destruct Hround as (d' & Hr & Hh'). rewrite Hr. cbn [rbind]. replace (S (S k) - 1) with (S k) in Hh' by lia.
    assert (Hga : gather (seq (S N - S k) (S k)) 0 (updn a o sh) = gather (seq (S N - S k) (S k)) 0 sh).
    { change (updn a o sh) with (upds [a] [o] sh). apply gather_upds_notin. intros q Hq [<-|[]]. apply in_seq in Hq. unfold a in Hq. lia. }
    assert (HY' : forall s, ad_word s -> String.length s = S k -> wf (Y' s) /\ shp (Y' s) = updn a o sh /\ ttag (Y' s) = g).
    { intros s Hw Hl. destruct (HY (String "a" s)) as (A1 & A2 & A3); [apply ad_cons; auto|cbn; lia|]. split; [apply wf_make|].
      unfold Y', idwt1, idwt_axes. rewrite shp_make. cbn [upds ttag tmake]. rewrite A2. auto. }
    rewrite (IH Y' Y' d' w L N g (updn a o sh) fuel); try lia; auto.
    + rewrite Hga. reflexivity.
    + intros s Hw Hl. split; [reflexivity|]. destruct (HY' (String "a" s)) as (A1 & A2 & A3); [apply ad_cons; auto|cbn; lia|].
      rewrite <- A2. apply slice_to_id. exact A1.
    + rewrite updn_length. exact Hsh.
    + rewrite Hga. exact Hp2.
Qed.

End SR2.
