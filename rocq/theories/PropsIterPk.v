(** C86, packets: with zero padding every packet node is the correlation of the signal with the filter of its path. *)
From Coq Require Import List Arith ZArith Lia Bool Ascii String Ring.
From Coq Require Import ZifyNat ZifyBool.
From Verif Require Import Base Sums Tensor TensorFacts Util Perm Plumb Accept Spec Conv1 PadFacts CoreFacts Analysis AnalysisInv Synthesis Filters Wave1 Wave1Inv Lin Examples Props1 Conv2 Conv3 Spec2 WaveN Packets SpecPk PacketFacts PacketConv PropsSwt PropsPk PropsConst PropsAdjoint PropsIter.
Import ListNotations.

Section IterPk.
Context {K : CRing}.
Add Ring Kring : (cr_th K).
Local Open Scope K_scope.
Implicit Types (x u : tensor K) (w : wavelet K) (f : list K).

(** filters applied one after the other, the last one first in the list; each works on a signal decimated by two *)
Fixpoint path_filter (up : list (list K)) (z : Z) : K :=
  match up with
  | [] => if Z.eqb z 0 then 1 else 0
  | f :: r => sumf (List.length f) (fun m => nth m f 0 * path_filter r (z - 2 ^ Z.of_nat (List.length r) * Z.of_nat m))
  end.
Notation pos j := (fun z o => (2 ^ Z.of_nat j * (z + 1) - 1 - Z.of_nat o)%Z).

Lemma path_support L up : (1 <= L)%nat -> Forall (fun f => List.length f = L) up -> forall z,
  (z < 0 \/ (2 ^ Z.of_nat (List.length up) - 1) * (Z.of_nat L - 1) < z)%Z -> path_filter up z = 0.
Proof.
  intros HL. induction 1 as [|f up Hf HF IH]; intros z H; cbn [path_filter].
  - replace (Z.eqb z 0) with false; [reflexivity|]. cbn [List.length] in H. change (2 ^ Z.of_nat 0)%Z with 1%Z in H. lia.
  - apply sumf_zero. intros m Hm. rewrite IH; [ring|]. rewrite Hf in Hm. cbn [List.length] in H. set (j := List.length up) in *. pose proof (Z.pow_pos_nonneg 2 (Z.of_nat j) ltac:(lia) ltac:(lia)) as P.
    rewrite Nat2Z.inj_succ, Z.pow_succ_r in H by lia. destruct H as [H|H]; [left; nia|right; nia].
Qed.
Lemma prodz_lo0 n : forall zs, prodz (repeat (iter_lo (@nil K) 0) n) zs = prodz (repeat (path_filter []) n) zs.
Proof. induction n as [|n IH]; intros [|z zs]; cbn [repeat prodz]; try reflexivity; rewrite IH; reflexivity. Qed.
(** axis filters of a chain of steps: [ups] has one reversed filter list per axis *)
Definition gpath (ups : list (list (list K))) : list (Z -> K) := map path_filter ups.
Lemma conv_path j : forall (fs : list (list K)) ups (ks os : list nat), Forall (fun up => List.length up = j) ups -> List.length ups = List.length fs -> List.length ks = List.length fs -> List.length os = List.length fs ->
  sumI (map (@List.length K) fs) (fun js => taps fs js * prodz (gpath ups) (map2 (pos j) (map2 (fun k i => (2 * Z.of_nat k + 1 - Z.of_nat i)%Z) ks js) os))
  = prodz (gpath (map2 cons fs ups)) (map2 (pos (S j)) (map Z.of_nat ks) os).
Proof.
  induction fs as [|f fs IH]; intros [|up ups] [|k ks] [|o os] HF H0 H1 H2; try discriminate; [cbn; ring|]. unfold gpath in *. cbn [map sumI map2 prodz].
  pose proof (Forall_inv HF) as Hu. cbn in Hu. rewrite <- (IH ups ks os (Forall_inv_tail HF)) by (cbn in *; lia). cbn [path_filter]. rewrite <- sumf_mul_r. apply sumf_ext. intros m Hm. rewrite <- sumI_mul_l. apply sumI_ext. intros js _. cbn [taps map2 prodz].
  rewrite Hu. replace (2 ^ Z.of_nat j * (2 * Z.of_nat k + 1 - Z.of_nat m + 1) - 1 - Z.of_nat o)%Z with (2 ^ Z.of_nat (S j) * (Z.of_nat k + 1) - 1 - Z.of_nat o - 2 ^ Z.of_nat j * Z.of_nat m)%Z; [ring|].
  rewrite Nat2Z.inj_succ, Z.pow_succ_r by lia. ring.
Qed.
Lemma out_path L j : (2 <= L)%nat -> forall s ups zs os, Forall (fun up => List.length up = j /\ Forall (fun f => List.length f = L) up) ups -> List.length ups = List.length s -> List.length zs = List.length s -> valid os s ->
  ext_idxs Mzero (map (len_after L j) s) zs = None -> prodz (gpath ups) (map2 (pos j) zs os) = 0.
Proof.
  intros HL. induction s as [|n s IH]; intros [|up ups] [|z zs] os HF H0 Hl Hv H; inversion Hv as [|o ? os' ? Ho Hos]; subst os; try discriminate. unfold gpath in *. cbn [map ext_idxs ext_idx map2 prodz List.length] in *.
  pose proof (Forall_inv HF) as [Hu1 Hu2].
  destruct ((0 <=? z) && (z <? Z.of_nat (len_after L j n)))%Z eqn:E.
  - rewrite (IH ups zs os'); [ring|exact (Forall_inv_tail HF)|lia|lia|exact Hos|]. destruct (ext_idxs Mzero (map (len_after L j) s) zs); [discriminate|reflexivity].
  - assert (Z0 : path_filter up (2 ^ Z.of_nat j * (z + 1) - 1 - Z.of_nat o) = 0).
    { apply (path_support L); [lia|exact Hu2|]. rewrite Hu1. pose proof (len_after_big L j HL n) as B. pose proof (Z.pow_pos_nonneg 2 (Z.of_nat j) ltac:(lia) ltac:(lia)) as P.
      assert (C : (z < 0 \/ Z.of_nat (len_after L j n) <= z)%Z) by lia. destruct C as [C|C]; [left; nia|right; nia]. }
    rewrite Z0. ring.
Qed.

Section Chain.
Variables (L : nat) (nax : list nat) (x : tensor K).
Hypothesis HL : (2 <= L)%nat.
Hypothesis Hw : wf x.
Hypothesis Hg : good_axes (rank x) nax.
Let s := gather nax 0%nat (shp x).
Let sj j := map (len_after L j) s.
(** the steps, the last one first *)
Fixpoint chain (fss : list (list (list K))) : tensor K :=
  match fss with [] => x | fs :: r => dwt_axes fs Mzero nax (chain r) end.
Fixpoint axis_paths (fss : list (list (list K))) : list (list (list K)) :=
  match fss with [] => map (fun _ => []) nax | fs :: r => map2 cons fs (axis_paths r) end.
Definition steps_ok (fss : list (list (list K))) : Prop := Forall (fun fs => List.length fs = List.length nax /\ Forall (fun f => List.length f = L) fs) fss.

Lemma Ls : List.length s = List.length nax. Proof using. apply gather_length. Qed.
Lemma paths_ok fss : steps_ok fss -> List.length (axis_paths fss) = List.length nax /\ Forall (fun up => List.length up = List.length fss /\ Forall (fun f => List.length f = L) up) (axis_paths fss).
Proof using.
  clear - L nax. induction 1 as [|fs fss [Hl HF] H [IH1 IH2]]; cbn [axis_paths List.length].
  - rewrite map_length. split; [reflexivity|]. apply Forall_forall. intros up Hu. apply in_map_iff in Hu as (? & <- & _). split; [reflexivity|constructor].
  - rewrite map2_length. split; [lia|]. assert (El : List.length fs = List.length (axis_paths fss)) by lia. clear Hl IH1 H. revert El IH2. generalize (axis_paths fss) as ups. intros ups. revert ups. induction HF as [|f fs Hf HF IHf]; intros [|up ups] El H2; try discriminate; cbn [map2]; constructor.
    + pose proof (Forall_inv H2) as [A B]. split; [cbn; lia|constructor; assumption].
    + apply IHf; [cbn in El; lia|exact (Forall_inv_tail H2)].
Qed.
Lemma chain_facts fss : steps_ok fss -> wf (chain fss) /\ ttag (chain fss) = ttag x /\ rank (chain fss) = rank x /\ shp (chain fss) = upds nax (sj (List.length fss)) (shp x).
Proof using HL Hw Hg.
  pose proof Hg as [Hnd Hin]. induction 1 as [|fs fss [Hl HF] H (IH1 & IH2 & IH3 & IH4)]; cbn [chain List.length].
  - repeat split; auto. unfold sj. rewrite map_id. symmetry. apply upds_gather.
  - split; [apply wf_make|]. split; [exact IH2|]. split; [unfold dwt_axes; rewrite rank_along; exact IH3|]. rewrite (shp_dwt L) by auto. rewrite IH4.
    rewrite gather_upds; [|exact Hnd|unfold sj; rewrite map_length; apply Ls|intros d Hd; apply Hin; exact Hd].
    rewrite upds_upds; [|exact Hnd|unfold sj; rewrite !map_length; reflexivity]. f_equal. unfold sj. rewrite map_map. apply map_ext. intros n. symmetry. apply len_after_S.
Qed.
Lemma chain_fib fss idx : steps_ok fss -> fib_ok nax idx (shp x) -> fib_ok nax idx (shp (chain fss)).
Proof using HL Hw Hg.
  intros Hs [H1 H2]. destruct (chain_facts fss Hs) as (_ & _ & R & S). unfold rank in R. split; [congruence|]. intros d Hd Hn. rewrite R in Hd. rewrite S, nth_upds_notin by exact Hn. apply H2; assumption.
Qed.
Lemma chain_step fs fss idx ks : steps_ok (fs :: fss) -> fib_ok nax idx (shp x) -> valid ks (sj (S (List.length fss))) ->
  (forall zs, List.length zs = List.length s -> ext_get Mzero (sj (List.length fss)) (fun is => get (chain fss) (upds nax is idx)) zs
    = sumI s (fun os => get x (upds nax os idx) * prodz (gpath (axis_paths fss)) (map2 (pos (List.length fss)) zs os))) ->
  get (chain (fs :: fss)) (upds nax ks idx)
  = sumI s (fun os => get x (upds nax os idx) * prodz (gpath (axis_paths (fs :: fss))) (map2 (pos (S (List.length fss))) (map Z.of_nat ks) os)).
Proof using HL Hw Hg.
  intros Hs Hi Hk IH. pose proof Hg as [Hnd Hin]. pose proof (Forall_inv Hs) as [Hl HF]. pose proof (Forall_inv_tail Hs) as Hs'. destruct (chain_facts fss Hs') as (_ & _ & R & S).
  destruct (paths_ok fss Hs') as [P1 P2]. pose proof Ls as HLs.
  assert (Hsz : gather nax 0%nat (shp (chain fss)) = sj (List.length fss)).
  { rewrite S. apply gather_upds; [exact Hnd|unfold sj; rewrite map_length; exact HLs|intros d Hd; apply Hin; exact Hd]. }
  cbn [chain]. rewrite (get_dwt_at L); [|rewrite R; exact Hg|exact Hl|exact HF|apply chain_fib; assumption|rewrite Hsz; unfold sj in *; rewrite map_map; erewrite map_ext; [exact Hk|intros n; symmetry; apply len_after_S]].
  rewrite Hsz. unfold dwt_op. pose proof (valid_length _ _ Hk) as Lk. unfold sj in Lk. rewrite map_length in Lk.
  transitivity (sumI (map (@List.length K) fs) (fun js => sumI s (fun os => get x (upds nax os idx) * (taps fs js * prodz (gpath (axis_paths fss)) (map2 (pos (List.length fss)) (map2 (fun k i => (2 * Z.of_nat k + 1 - Z.of_nat i)%Z) ks js) os))))).
  - apply sumI_ext. intros js Hjs. pose proof (valid_length _ _ Hjs) as Lj. rewrite map_length in Lj. rewrite IH by (rewrite map2_length; lia). rewrite <- sumI_mul_l. apply sumI_ext. intros os _. ring.
  - rewrite sumI_swap. apply sumI_ext. intros os Hos. pose proof (valid_length _ _ Hos) as Lo. rewrite sumI_mul_l. f_equal. cbn [axis_paths]. apply conv_path; try lia.
    eapply Forall_impl; [|exact P2]. intros up [A _]. exact A.
Qed.
Lemma gpath_nil : gpath (axis_paths []) = repeat (path_filter []) (List.length nax).
Proof using. unfold gpath. cbn [axis_paths]. rewrite map_map. clear. induction nax as [|a l IH]; [reflexivity|]. cbn [map List.length repeat]. rewrite IH. reflexivity. Qed.
Lemma chain_ext fss idx : steps_ok fss -> fib_ok nax idx (shp x) -> forall zs, List.length zs = List.length s ->
  ext_get Mzero (sj (List.length fss)) (fun is => get (chain fss) (upds nax is idx)) zs
  = sumI s (fun os => get x (upds nax os idx) * prodz (gpath (axis_paths fss)) (map2 (pos (List.length fss)) zs os)).
Proof using HL Hw Hg.
  intros Hs Hi. pose proof Ls as HLs. induction Hs as [|fs fss Hf Hs IH]; intros zs Hz.
  - unfold sj. cbn [List.length chain len_after]. rewrite map_id. rewrite (ext_zero_sum s _ [] zs Hz). apply sumI_ext. intros os _. f_equal. rewrite prodz_lo0, gpath_nil, HLs. reflexivity.
  - unfold ext_get. cbn [List.length]. destruct (ext_idxs Mzero (sj (S (List.length fss))) zs) as [ks|] eqn:E.
    + destruct (ext_some_valid (sj (S (List.length fss))) zs ks) as [Hk ->]; [unfold sj; rewrite map_length; exact Hz|exact E|].
      apply chain_step; [constructor; assumption|exact Hi|exact Hk|exact IH].
    + symmetry. apply sumI_zero. intros os Hos. destruct (paths_ok (fs :: fss)) as [P1 P2]; [constructor; assumption|].
      rewrite (out_path L (S (List.length fss)) HL s (axis_paths (fs :: fss)) zs os P2) by (first [exact E|exact Hos|congruence]). ring.
Qed.
Lemma chain_closed fss : steps_ok fss -> chain fss = correlate L (gpath (axis_paths fss)) (List.length fss) nax x.
Proof using HL Hw Hg.
  intros Hs. pose proof Hg as [Hnd Hin]. destruct (chain_facts fss Hs) as (Wc & Tc & Rc & Sc). unfold correlate. fold s. fold (sj (List.length fss)).
  apply t_ext; [exact Wc|apply wf_make|exact Tc|exact Sc|]. intros idx Hv. rewrite Sc in Hv. rewrite get_make by exact Hv.
  assert (Hl : List.length (sj (List.length fss)) = List.length nax) by (unfold sj; rewrite map_length; apply Ls).
  pose proof (fib_valid_out nax (sj (List.length fss)) (shp x) idx Hg Hl Hv) as Hi.
  assert (Hks : valid (gather nax 0%nat idx) (sj (List.length fss))).
  { rewrite <- (gather_upds nax (sj (List.length fss)) (shp x) 0%nat Hnd Hl) by (intros d Hd; apply Hin; exact Hd). apply valid_gather_sub; [|exact Hv]. intros d Hd. rewrite upds_length. apply Hin. exact Hd. }
  set (ks := gather nax 0%nat idx) in *.
  pose proof (chain_ext fss idx Hs Hi (map Z.of_nat ks) ltac:(rewrite map_length, (valid_length _ _ Hks); unfold sj; apply map_length)) as E.
  assert (V : forall s ks, valid ks s -> ext_idxs Mzero s (map Z.of_nat ks) = Some ks).
  { clear. induction 1 as [|k n ks s Hk H IH]; [reflexivity|]. cbn [map ext_idxs ext_idx]. rewrite IH. replace ((0 <=? Z.of_nat k) && (Z.of_nat k <? Z.of_nat n))%Z with true by lia. rewrite Nat2Z.id. reflexivity. }
  unfold ext_get in E. rewrite V in E by exact Hks. cbv beta in E. unfold ks in E at 1. rewrite upds_gather in E. etransitivity; [exact E|]. apply sumI_ext. intros os _. f_equal. f_equal.
  clear. revert os. induction ks as [|k ks IH]; intros [|o os]; cbn [map map2]; try reflexivity. rewrite IH. reflexivity.
Qed.
End Chain.

Lemma packet_chain (fil : ascii -> list (list K)) nax (x : tensor K) : forall p, packet_node fil Mzero nax p x = chain nax x (map fil (rev p)).
Proof.
  intros p. unfold packet_node. rewrite <- (rev_involutive p) at 1. generalize (rev p). clear p. induction l as [|c l IH]; [reflexivity|].
  cbn [rev map chain]. rewrite fold_left_app. cbn [fold_left]. rewrite IH. reflexivity.
Qed.

(** the filter a letter puts on the only axis / on the rows / on the columns *)
Theorem C86_packet_1d w L axis s0 x maxlevel s1 m h k v : let B := packet1 w "zero"%string axis in
  even_bank w L -> wf x -> axis_ok (rank x) axis ->
  pk_transform B s0 x maxlevel = (s1, Ok tt) -> p_max s1 = Some m -> Forall read_op h ->
  snd (pk_get B (pk_run B s1 h) k) = Ok v ->
  v = correlate L [path_filter (map (fun c => if Ascii.eqb c "d" then dec_hi w else dec_lo w) (rev k))] (List.length k) [norm_axis (rank x) axis] x.
Proof.
  intros B Hb Hw Hax Ht Hm Hh H. unfold B in *. rewrite (C26_packet_reads_1d w _ axis s0 x maxlevel s1 m h k Ht Hm Hh) in H. destruct Hb as (H1 & H2 & HL & He).
  assert (Ev : v = packet_node (filters1 (dec_lo w) (dec_hi w)) Mzero [norm_axis (rank x) axis] k x).
  { destruct k as [|c k]; [cbn [packet_read] in H; apply ok_inj in H; rewrite <- H; reflexivity|]. unfold packet_read in H. destruct (_ <=? m)%Z; [|discriminate].
    apply (C26_node_formula_1d w Mzero L axis x (c :: k) v); [repeat split; assumption|exact Hw|exact H]. }
  rewrite Ev, packet_chain. rewrite (chain_closed L [norm_axis (rank x) axis] x HL Hw).
  - rewrite map_length, rev_length. f_equal. unfold gpath. generalize (rev k). clear. intros l.
    assert (G : axis_paths [norm_axis (rank x) axis] (map (filters1 (dec_lo w) (dec_hi w)) l) = [map (fun c => if Ascii.eqb c "d" then dec_hi w else dec_lo w) l]).
    { induction l as [|c l IH]; [reflexivity|]. cbn [map axis_paths]. rewrite IH. reflexivity. }
    rewrite G. reflexivity.
  - apply good_axes1. apply norm_axis_lt. exact Hax.
  - apply Forall_forall. intros fs Hf. apply in_map_iff in Hf as (c & <- & _). split; [reflexivity|]. unfold filters1. constructor; [destruct (Ascii.eqb c "d"); assumption|constructor].
Qed.
Theorem C86_packet_2d w L axes separable s0 x maxlevel s1 m h k v : let B := packet2 w "zero"%string axes separable in
  even_bank w L -> wf x -> List.length axes = 2%nat -> axes_ok (rank x) axes ->
  pk_transform B s0 x maxlevel = (s1, Ok tt) -> p_max s1 = Some m -> Forall read_op h ->
  snd (pk_get B (pk_run B s1 h) k) = Ok v ->
  let row c := nth 0 (filters2 separable (dec_lo w) (dec_hi w) c) [] in let col c := nth 1 (filters2 separable (dec_lo w) (dec_hi w) c) [] in
  v = correlate L [path_filter (map row (rev k)); path_filter (map col (rev k))] (List.length k) (map (norm_axis (rank x)) axes) x.
Proof.
  intros B Hb Hw Hla Hax Ht Hm Hh H row col. unfold B in *. rewrite (C26_packet_reads_2d w _ axes separable s0 x maxlevel s1 m h k Ht Hm Hh) in H. destruct Hb as (H1 & H2 & HL & He).
  set (nax := map (norm_axis (rank x)) axes).
  assert (Ev : v = packet_node (filters2 separable (dec_lo w) (dec_hi w)) Mzero nax k x).
  { destruct k as [|c k]; [cbn [packet_read] in H; apply ok_inj in H; rewrite <- H; reflexivity|]. unfold packet_read in H. destruct (_ <=? m)%Z; [|discriminate].
    apply (C26_node_formula_2d w Mzero L axes separable x (c :: k) v); [repeat split; assumption|exact Hw|exact Hla|exact H]. }
  assert (Hn : List.length nax = 2%nat) by (unfold nax; rewrite map_length; exact Hla).
  assert (F2 : forall c, filters2 separable (dec_lo w) (dec_hi w) c = [row c; col c]).
  { intros c. unfold row, col, filters2. destruct (Ascii.eqb c "d"), (Ascii.eqb c (if separable then "v" else "h")%char), (Ascii.eqb c (if separable then "h" else "v")%char); reflexivity. }
  assert (Lrc : forall c, List.length (row c) = L /\ List.length (col c) = L).
  { intros c. unfold row, col, filters2. destruct (Ascii.eqb c "d"), (Ascii.eqb c (if separable then "v" else "h")%char), (Ascii.eqb c (if separable then "h" else "v")%char); cbn [nth]; auto. }
  rewrite Ev, packet_chain. rewrite (chain_closed L nax x HL Hw).
  - rewrite map_length, rev_length. f_equal. unfold gpath. generalize (rev k). clear - F2 Hn. intros l.
    assert (G : axis_paths nax (map (filters2 separable (dec_lo w) (dec_hi w)) l) = [map row l; map col l]).
    { induction l as [|c l IH]; [cbn; destruct nax as [|a [|b [|]]]; try discriminate; reflexivity|]. cbn [map axis_paths]. rewrite IH, F2. reflexivity. }
    rewrite G. reflexivity.
  - apply good_axes_ok. exact Hax.
  - apply Forall_forall. intros fs Hf. apply in_map_iff in Hf as (c & <- & _). rewrite F2. destruct (Lrc c). split; [cbn; congruence|repeat constructor; assumption].
Qed.
End IterPk.
