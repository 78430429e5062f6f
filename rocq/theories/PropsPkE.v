(** C72 and C73 for the packets with mode="boundary": their nodes are the coefficients of the boundary transforms, and
    every level of the tree has the energy of the data. *)
From Coq Require Import List Arith ZArith QArith Lia Bool String Ascii Ring Permutation.
From Coq Require Import ZifyNat ZifyBool.
From Verif Require Import Base Sums Tensor TensorFacts Util Perm Plumb Accept Spec Conv1 Conv2 PadFacts CoreFacts AnalysisInv Synthesis Filters Wave1 Wave1Inv Rec1 Props1 RecN Sep SepFacts Lin Packets SpecPk PacketFacts PacketConv PropsPk PropsPkDec PropsNd Sparse SparseFacts SpecMat SpecMatN SparseMM LinAlg Mat1 MatN MatOrth Boundary MatPre Mat1Facts Mat1Call Tags PropsMat1 MatNFacts MatNLoop MatNSep MatNNon MatNCall PropsMatN PropsMatN2 PropsMatNon EnergyN Surj PropsSurj PacketsM PkInv SpecPkM PropsPkM PropsPkM2 PropsLin PropsBatch PropsBatch2 PropsNest PropsEnergyZ.
Import ListNotations.
Ltac Zify.zify_post_hook ::= Z.div_mod_to_equations.
Local Open Scope nat_scope.
Local Arguments Nat.div : simpl never.
Local Arguments Nat.modulo : simpl never.

Section PE.
Context {K : CRing}.
Add Ring Kring : (cr_th K).
Local Open Scope K_scope.
Implicit Types (t u x y : tensor K).

(** ** energy of a level of a tree *)
Fixpoint all_words (letters : list ascii) (j : nat) : list (list ascii) :=
  match j with O => [[]] | S j' => flat_map (fun p => map (fun c => p ++ [c]) letters) (all_words letters j') end.
Lemma all_words_in letters j : forall p, In p (all_words letters j) <-> List.length p = j /\ word letters p.
Proof.
  induction j as [|j IH]; intros p; cbn [all_words].
  - split; [intros [<-|[]]; split; [reflexivity|constructor]|]. intros [H _]. left. symmetry. apply length_zero_iff_nil, H.
  - rewrite in_flat_map. split.
    + intros (q & Hq & Hp). apply in_map_iff in Hp as (c & <- & Hc). apply IH in Hq as [H1 H2]. rewrite app_length. cbn [List.length]. split; [lia|]. apply Forall_app. split; [exact H2|]. constructor; [exact Hc|constructor].
    + intros [Hl Hw]. destruct p as [|c p] using rev_ind; [discriminate|]. clear IHp. rewrite app_length in Hl. cbn [List.length] in Hl. apply Forall_app in Hw as [H1 H2]. exists p. split; [apply IH; split; [lia|exact H1]|]. apply in_map_iff. exists c. split; [reflexivity|apply (Forall_inv H2)].
Qed.
Lemma all_words_nodup letters j : NoDup letters -> NoDup (all_words letters j).
Proof.
  intros Hn. induction j as [|j IH]; cbn [all_words]; [constructor; [intros []|constructor]|]. induction IH as [|q l Hq Hl IH']; cbn [flat_map]; [constructor|].
  apply NoDup_app_intro; [apply FinFun.Injective_map_NoDup; [intros c c' E; apply app_inj_tail in E; apply E|exact Hn]|exact IH'|].
  intros p Hp Hf. apply in_map_iff in Hp as (c & <- & Hc). apply in_flat_map in Hf as (q' & Hq' & Hf). apply in_map_iff in Hf as (c' & E & _). apply app_inj_tail in E as [-> _]. contradiction.
Qed.
Lemma sumL_perm {A} (l l' : list A) (f : A -> K) : Permutation l l' -> sumL l f = sumL l' f.
Proof. induction 1; cbn [sumL]; [reflexivity|rewrite IHPermutation; reflexivity|ring|congruence]. Qed.

Lemma child_all (letters : list ascii) (F : ascii -> tensor K) : NoDup letters -> forall ch, List.length ch = List.length letters ->
  (forall c, In c letters -> child letters ch c = Some (F c)) -> ch = map F letters.
Proof.
  induction 1 as [|c l Hc Hl IH]; intros [|u ch] Hlen H; try discriminate; [reflexivity|]. cbn [map]. f_equal.
  - specialize (H c (or_introl eq_refl)). cbn [child] in H. rewrite Ascii.eqb_refl in H. congruence.
  - apply IH; [cbn in Hlen; lia|]. intros c' Hc'. specialize (H c' (or_intror Hc')). cbn [child] in H. destruct (Ascii.eqb_spec c c') as [->|]; [contradiction|exact H].
Qed.
Section Tree.
Variables (f : tensor K -> result (list (tensor K))) (letters : list ascii) (D : tensor K -> Prop).
Hypothesis Hnd : NoDup letters.
Hypothesis Hne : letters <> [].
Hypothesis Hf : forall t ch, D t -> f t = Ok ch -> Forall D ch /\ List.length ch = List.length letters /\ sumL ch energy = energy t.
Lemma memc_true c : In c letters -> memc c letters = true.
Proof. intros H. unfold memc. apply existsb_exists. exists c. split; [exact H|apply Ascii.eqb_refl]. Qed.
Lemma node_D x p v : D x -> node_at f letters x p = Ok v -> D v.
Proof.
  intros Hx. revert v. induction p as [|c p IH] using rev_ind; intros v H; [apply ok_inj in H; subst; exact Hx|]. rewrite node_snoc' in H. destruct (memc c letters); [|discriminate].
  apply rbind_ok in H as (u & Hu & H). apply rbind_ok in H as (ch & Hch & H). destruct (child letters ch c) as [r|] eqn:Er; [|discriminate]. apply ok_inj in H. subst r.
  destruct (Hf u ch (IH u Hu) Hch) as (H1 & _). rewrite Forall_forall in H1. apply H1. clear - Er. revert ch Er. induction letters as [|q l IH]; intros [|y ch] E; try discriminate. cbn [child] in E. destruct (Ascii.eqb q c); [injection E as ->; left; reflexivity|right; apply IH, E].
Qed.
Lemma energy_nodes x j : forall V, D x -> (forall p, In p (all_words letters j) -> node_at f letters x p = Ok (V p)) -> sumL (all_words letters j) (fun p => energy (V p)) = energy x.
Proof.
  induction j as [|j IH]; intros V Hx HV.
  - cbn [all_words sumL]. specialize (HV [] (or_introl eq_refl)). apply ok_inj in HV. rewrite <- HV. ring.
  - cbn [all_words]. rewrite Sums.sumL_flat_map. set (V' := fun p => match node_at f letters x p with Ok v => v | Raise _ => x end).
    assert (HS : forall p c, In p (all_words letters j) -> In c letters -> node_at f letters x (p ++ [c]) = Ok (V (p ++ [c]))).
    { intros p c Hp Hc. apply HV. cbn [all_words]. apply in_flat_map. exists p. split; [exact Hp|]. apply in_map_iff. exists c. auto. }
    assert (E0 : exists c0, In c0 letters) by (clear - Hne; destruct letters as [|c0 ls]; [congruence|exists c0; left; reflexivity]). destruct E0 as [c0 Hc0].
    assert (HP : forall p, In p (all_words letters j) -> node_at f letters x p = Ok (V' p)).
    { intros p Hp. specialize (HS p c0 Hp Hc0). rewrite node_snoc', (memc_true c0 Hc0) in HS. apply rbind_ok in HS as (u & Hu & _). unfold V'. rewrite Hu. reflexivity. }
    rewrite <- (IH V' Hx HP). apply sumL_ext. intros p Hp. rewrite sumL_map.
    pose proof (HP p Hp) as Hv. pose proof (node_D x p (V' p) Hx Hv) as HDv.
    assert (Hch : exists ch, f (V' p) = Ok ch).
    { specialize (HS p c0 Hp Hc0). rewrite node_snoc', (memc_true c0 Hc0), Hv in HS. cbn [rbind] in HS. apply rbind_ok in HS as (ch & Hch & _). eauto. }
    destruct Hch as [ch Hch]. destruct (Hf _ _ HDv Hch) as (_ & Hlen & He). rewrite <- He.
    rewrite (child_all letters (fun c => V (p ++ [c])) Hnd ch Hlen); [symmetry; apply sumL_map|].
    intros c Hc. specialize (HS p c Hp Hc). rewrite node_snoc', (memc_true c Hc), Hv in HS. cbn [rbind] in HS. rewrite Hch in HS. cbn [rbind] in HS. destruct (child letters ch c); [apply ok_inj in HS; congruence|discriminate].
Qed.
Lemma energy_level x j ps V : D x -> NoDup ps -> (forall p, In p ps <-> List.length p = j /\ word letters p) -> (forall p, In p ps -> node_at f letters x p = Ok (V p)) ->
  sumL ps (fun p => energy (V p)) = energy x.
Proof.
  intros Hx Hn Hps HV. rewrite (sumL_perm ps (all_words letters j)).
  - apply energy_nodes; [exact Hx|]. intros p Hp. apply HV, Hps. apply all_words_in, Hp.
  - apply NoDup_Permutation; [exact Hn|apply all_words_nodup, Hnd|]. intros p. rewrite Hps, all_words_in. reflexivity.
Qed.
End Tree.
Lemma read_node (f : tensor K -> result (list (tensor K))) letters x M p (v : tensor K) : packet_read f letters x M p = Ok v -> node_at f letters x p = Ok v.
Proof. unfold packet_read. destruct p; [intros H; exact H|]. destruct (_ <=? _)%Z; [auto|discriminate]. Qed.

Variable LA : linalg K.
Hypothesis HD : domain K.
Hypothesis HR : formally_real K.
Variables (w : wavelet K) (L : nat) (method : string) (g : tag).
Hypothesis HLA : la_ok LA method.
Hypothesis B : orthogonal_bank L (dec_lo w) (dec_hi w) (rec_lo w) (rec_hi w).
Hypothesis HI : boundary_independent L (dec_lo w) (dec_hi w).

(** C73: the nodes of one level, each counted once, have together the energy of the data - whatever the sizes. *)
Theorem C73_packets_1d axis h0 x maxlevel s1 M h j ps V (Bk := packet1b LA w method axis) :
  Forall (op_data (is_data g)) h0 -> wf x -> ttag x = g ->
  pk_transform Bk (pk_run Bk (pk_new Bk ([], [])) h0) x maxlevel = (s1, Ok tt) -> p_max s1 = Some M -> Forall read_op h ->
  NoDup ps -> (forall p, In p ps <-> List.length p = j /\ word ["a"; "d"]%char p) ->
  (forall p, In p ps -> snd (pk_get Bk (pk_run Bk s1 h) p) = Ok (V p)) ->
  sumL ps (fun p => energy (V p)) = energy x.
Proof using All.
  intros Hh0 Hw Hg Ht Hm Hh Hn Hps HV.
  apply (energy_level (one_level1 LA w method axis) ["a"; "d"]%char (fun t => wf t)) with (j := j); auto.
  - repeat constructor; cbn; intuition discriminate.
  - discriminate.
  - intros t ch Wt Hch. destruct (node1_facts LA HD HR w L method HLA B HI axis t ch Wt Hch) as (_ & o & ox & c & a & d & Ho & Hc & Hi & -> & Hall).
    split; [eapply Forall_impl; [|exact Hall]; intros u H; apply H|]. split; [reflexivity|].
    rewrite <- (C73_energy_1d LA HD HR w L method HLA B HI (Some 1%Z) axis o t ox c Wt Ho Hc). unfold energies, pc_tensors. rewrite Hi. reflexivity.
  - intros p Hp. specialize (HV p Hp). unfold Bk in *. rewrite (C54_reads_1d LA HD HR w L method HLA B HI axis g h0 x maxlevel s1 M h p Hh0 Hw Hg Ht Hm Hh) in HV. apply (read_node _ _ _ M), HV.
Qed.
Theorem C73_packets_2d axes sep h0 x maxlevel s1 M h j ps V (Bk := packet2b LA w method axes sep) :
  two_axes axes -> Forall (op_data (is_data g)) h0 -> wf x -> ttag x = g ->
  pk_transform Bk (pk_run Bk (pk_new Bk ([], [])) h0) x maxlevel = (s1, Ok tt) -> p_max s1 = Some M -> Forall read_op h ->
  NoDup ps -> (forall p, In p ps <-> List.length p = j /\ word ["a"; "h"; "v"; "d"]%char p) ->
  (forall p, In p ps -> snd (pk_get Bk (pk_run Bk s1 h) p) = Ok (V p)) ->
  sumL ps (fun p => energy (V p)) = energy x.
Proof using All.
  intros Hta Hh0 Hw Hg Ht Hm Hh Hn Hps HV. pose proof (two_axes_len axes Hta) as Hl.
  apply (energy_level (one_level2 LA w method axes sep) ["a"; "h"; "v"; "d"]%char (fun t => wf t)) with (j := j); auto.
  - repeat constructor; cbn; intuition discriminate.
  - discriminate.
  - intros t ch Wt Hch. destruct (level2_facts LA HD HR w L method HLA B HI axes sep t ch Wt Hl Hch) as (_ & o & ox & c & a & hh & v & d & Ho & Hc & _ & Hi & -> & Hall).
    split; [eapply Forall_impl; [|exact Hall]; intros u H; apply H|]. split; [reflexivity|].
    assert (E : energies (pc_tensors c) = energy t) by (destruct sep; [apply (C73_energy_2d LA HD HR w L method HLA B HI (Some 1%Z) axes o t ox c Wt Ho Hc)|apply (C73_energy_2d_nonseparable LA HD HR w L method HLA B HI (Some 1%Z) axes o t ox c Wt Ho Hc)]).
    rewrite <- E. unfold energies, pc_tensors. rewrite Hi. reflexivity.
  - intros p Hp. specialize (HV p Hp). unfold Bk in *. rewrite (C54_reads_2d LA HD HR w L method axes sep g HLA B HI Hta h0 x maxlevel s1 M h p Hh0 Hw Hg Ht Hm Hh) in HV. apply (read_node _ _ _ M), HV.
Qed.

(** ** C72: the nodes along the path a...a and their other children are the coefficients of the boundary transform *)
Lemma bw_levels_fit l j : forall n, (j < bw_levels l L n)%nat -> (L <= Nat.iter j half_up n)%nat.
Proof using.
  revert j. induction l as [|l IH]; intros j n H; cbn [bw_levels] in H; [lia|]. destruct (n <? L) eqn:E; [lia|]. destruct j as [|j]; [cbn; lia|]. rewrite iter_r. apply IH. unfold half_up. lia.
Qed.
Lemma walk_a1 (A : nat -> nat -> nat -> K) a j x : packet_walk (bw_letter1 A a) (all_a j) x = bw_approx A Mzero a j x.
Proof using.
  unfold all_a, packet_walk, bw_approx. revert x. induction j as [|j IH]; intros x; [reflexivity|]. rewrite iter_r. cbn [repeat fold_left]. rewrite IH. reflexivity.
Qed.
Lemma all_a_S j : all_a (S j) = all_a j ++ ["a"%char].
Proof using. unfold all_a. induction j as [|j IH]; [reflexivity|]. cbn [repeat app] in *. f_equal. exact IH. Qed.
Lemma level1_at axis t : is_data g t -> is_dtype_supported (tdtype t) = true -> axis_ok (rank t) axis -> (L <= even_up (nth (norm_axis (rank t) axis) (shp t) 0))%nat ->
  one_level1 LA w method axis t = Ok [bw_lo (Bm LA w method g) Mzero (norm_axis (rank t) axis) t; bw_hi (Bm LA w method g) Mzero (norm_axis (rank t) axis) t].
Proof using All.
  intros Hd Hs Hax Hn. destruct (one_level1_ok LA HD HR w L method HLA B HI axis g t Hd Hs Hax Hn) as [ch Hch]. rewrite Hch. f_equal.
  destruct (one_level1_inv LA HD HR w L method HLA B HI axis g t ch Hd Hch) as (_ & _ & _ & E & _). exact E.
Qed.
Theorem C72_packets_wavedec_1d axis h0 x maxlevel s1 M h level o ox b A D (Bk := packet1b LA w method axis) :
  Forall (op_data (is_data g)) h0 -> wf x -> ttag x = g ->
  pk_transform Bk (pk_run Bk (pk_new Bk ([], [])) h0) x maxlevel = (s1, Ok tt) -> p_max s1 = Some M -> Forall read_op h ->
  new_mwavedec w level (AxInt axis) method (Some (mode_name Mzero)) = Ok o -> mw_call LA o x = (ox, Ok (mkPC b (PT A :: D))) ->
  let J := List.length D in (0 < Z.of_nat J <= M)%Z ->
  let read k := snd (pk_get Bk (pk_run Bk s1 h) k) in
  read (all_a J) = Ok A /\
  forall j, (1 <= j <= J)%nat -> exists d, nth_error D (J - j) = Some (PT d) /\ read (all_a (j - 1) ++ ["d"%char]) = Ok d.
Proof using All.
  intros Hh0 Hw Hg Ht Hm Hh Ho Hc J HJ read. apply new_mw_inv in Ho as ->.
  destruct (mat1_outcome LA HD HR w L method Mzero HLA B HI level axis x ox _ Hw Hc) as (Hd & Hax & _ & lev & Hlev & Ec).
  set (a := norm_axis (rank x) axis) in *. assert (Ha : (a < rank x)%nat) by (apply norm_axis_lt; exact Hax).
  set (N := bw_levels (Z.to_nat lev) L (even_up (nth a (shp x) 0%nat))) in *. set (x1 := ext_even Mzero [a] x) in *. rewrite Hg in Ec. set (Bg := Bm LA w method g) in *.
  assert (W1 : wf x1) by apply wf_make. assert (R1 : rank x1 = rank x) by (unfold x1, ext_even; apply rank_along).
  assert (N1 : nth a (shp x1) 0%nat = even_up (nth a (shp x) 0%nat)) by (unfold x1; rewrite shp_ext_even; unfold gather; cbn [map upds]; rewrite nth_updn_eq by exact Ha; reflexivity).
  assert (Q : A = bw_approx Bg Mzero a N x1 /\ D = map (fun j => PT (bw_hi Bg Mzero a (bw_approx Bg Mzero a j x1))) (rev (seq 0 N))).
  { unfold bw_coeffs in Ec. injection Ec as _ Q1 Q2. rewrite map_map in Q2. auto. }
  destruct Q as [EA ED]. assert (EJ : J = N) by (unfold J; rewrite ED, map_length, rev_length, seq_length; reflexivity).
  (* the node at depth j and the object used for it *)
  set (nd := fun j => match j with O => x | _ => bw_approx Bg Mzero a j x1 end).
  assert (HN : forall j, wf (nd j) /\ ttag (nd j) = g /\ rank (nd j) = rank x /\ bw_lo Bg Mzero a (nd j) = bw_approx Bg Mzero a (S j) x1 /\ bw_hi Bg Mzero a (nd j) = bw_hi Bg Mzero a (bw_approx Bg Mzero a j x1) /\
     ((j < N)%nat -> (L <= even_up (nth a (shp (nd j)) 0%nat))%nat)).
  { intros [|j].
    - cbn [nd]. split; [exact Hw|]. split; [exact Hg|]. split; [reflexivity|]. split; [symmetry; apply (bw_lo_ext Bg Mzero a x Hw Ha)|]. split; [symmetry; apply (bw_hi_ext Bg Mzero a x Hw Ha)|]. intros HjN. apply bw_levels_fit in HjN. exact HjN.
    - cbn [nd]. destruct (bw_approx_facts Bg Mzero a (S j) x1 W1 ltac:(lia)) as (F1 & F2 & F3 & F4). split; [exact F1|]. split; [rewrite F3; exact Hg|]. split; [congruence|]. split; [reflexivity|]. split; [reflexivity|].
      intros HjN. rewrite F4, N1. apply bw_levels_fit in HjN. pose proof (even_up_ge (Nat.iter (S j) half_up (even_up (nth a (shp x) 0%nat)))). lia. }
  assert (Hnode : forall j, (j <= N)%nat -> node_at (one_level1 LA w method axis) ["a"; "d"]%char x (all_a j) = Ok (nd j) /\
     ((j < N)%nat -> one_level1 LA w method axis (nd j) = Ok [nd (S j); bw_hi Bg Mzero a (bw_approx Bg Mzero a j x1)])).
  { intros j. induction j as [|j IH]; intros HjN.
    - split; [reflexivity|]. intros H0. destruct (HN 0%nat) as (F1 & F2 & F3 & F4 & F5 & F6). rewrite level1_at; [|split; assumption|exact Hd|exact Hax|apply F6, H0]. cbn [nd] in *. fold a Bg. rewrite F4, F5. reflexivity.
    - destruct (IH ltac:(lia)) as [I1 I2]. split.
      + rewrite all_a_S, node_snoc'. cbn [memc existsb Ascii.eqb Bool.eqb orb]. rewrite I1. cbn [rbind]. rewrite I2 by lia. reflexivity.
      + intros HS. destruct (HN (S j)) as (F1 & F2 & F3 & F4 & F5 & F6). rewrite level1_at; [|split; assumption|unfold tdtype in *; rewrite F2; rewrite Hg in Hd; exact Hd|rewrite F3; exact Hax|rewrite F3; apply F6, HS].
        rewrite F3. fold a Bg. rewrite F4, F5. reflexivity. }
  assert (Hread : forall k, k <> [] -> (Z.of_nat (List.length k) <= M)%Z -> read k = node_at (one_level1 LA w method axis) ["a"; "d"]%char x k).
  { intros k Hk Hl. unfold read, Bk. rewrite (C54_reads_1d LA HD HR w L method HLA B HI axis g h0 x maxlevel s1 M h k Hh0 Hw Hg Ht Hm Hh). unfold packet_read. destruct k; [congruence|]. rewrite (proj2 (Z.leb_le _ _)) by exact Hl. reflexivity. }
  assert (Hla : forall j, List.length (all_a j) = j) by (intros j; apply repeat_length).
  split.
  - rewrite Hread; [|destruct J; [lia|discriminate]|rewrite Hla; lia]. rewrite EJ. rewrite (proj1 (Hnode N ltac:(lia))). rewrite EA. destruct N; [lia|reflexivity].
  - intros j Hj. exists (bw_hi Bg Mzero a (bw_approx Bg Mzero a (j - 1) x1)). split.
    + rewrite ED. rewrite <- EJ. rewrite nth_error_map. rewrite (nth_error_nth' _ 0%nat) by (rewrite rev_length, seq_length; lia). cbn [option_map]. rewrite rev_nth by (rewrite seq_length; lia). rewrite seq_length, seq_nth by lia. do 4 f_equal. lia.
    + rewrite Hread; [|destruct (all_a (j - 1)); discriminate|rewrite app_length, Hla; cbn [List.length]; lia]. destruct (Hnode (j - 1)%nat ltac:(lia)) as [I1 I2].
      rewrite node_snoc'. cbn [memc existsb Ascii.eqb Bool.eqb orb]. rewrite I1. cbn [rbind]. rewrite I2 by lia. reflexivity.
Qed.

Lemma bwn_levels_fit l j : forall s, (j < bwn_levels l L s)%nat -> Forall (fun n => (L <= n)%nat) (Nat.iter j (map half_up) s).
Proof using.
  revert j. induction l as [|l IH]; intros j s H; cbn [bwn_levels] in H; [lia|]. destruct (existsb _ s) eqn:E; [lia|]. destruct j as [|j]; [cbn [Nat.iter nat_rect]; apply existsb_ltb, E|]. rewrite iter_r. apply IH. change (map half_up s) with (map (fun n => even_up n / 2)%nat s). lia.
Qed.
Theorem C72_packets_wavedec_2d axes sep h0 x maxlevel s1 M h level o ox b A D (Bk := packet2b LA w method axes sep) :
  two_axes axes -> Forall (op_data (is_data g)) h0 -> wf x -> ttag x = g ->
  pk_transform Bk (pk_run Bk (pk_new Bk ([], [])) h0) x maxlevel = (s1, Ok tt) -> p_max s1 = Some M -> Forall read_op h ->
  new_mwavedecn 2 w level (AxSeq axes) method (Some (mode_name Mzero)) sep = Ok o -> mw2_call LA o x = (ox, Ok (mkPC b (PT A :: D))) ->
  let J := List.length D in (Z.of_nat J <= M)%Z ->
  let read k := snd (pk_get Bk (pk_run Bk s1 h) k) in
  read (all_a J) = Ok A /\
  forall j, (1 <= j <= J)%nat -> exists H V Dg, nth_error D (J - j) = Some (PTup [H; V; Dg]) /\
    read (all_a (j - 1) ++ ["h"%char]) = Ok H /\ read (all_a (j - 1) ++ ["v"%char]) = Ok V /\ read (all_a (j - 1) ++ ["d"%char]) = Ok Dg.
Proof using All.
  intros Hta Hh0 Hw Hg Ht Hm Hh Ho Hc J HJ read. pose proof (two_axes_len axes Hta) as Hl. apply new_mwn_inv in Ho as [_ ->].
  set (Mb := MB LA w method sep g). set (nax := map (norm_axis (rank x)) axes).
  assert (Q : is_dtype_supported (tdtype x) = true /\ axes_ok (rank x) axes /\ exists lev, ((0 < bwn_levels lev L (gather nax 0%nat (shp x)))%nat -> (0 < prodl (fsz nax (shp x)))%nat) /\
     mkPC b (PT A :: D) = bwn2_coeffs Mb Mzero nax (bands2 sep) (bwn_levels lev L (gather nax 0%nat (shp x))) x).
  { unfold Mb, MB, bands2. destruct sep.
    - destruct (sep_outcome LA HD HR w L method Mzero HLA B HI level axes x ox _ Hw Hl Hc) as (Hd & Hax & lev & _ & Hb & E). rewrite Hg in E. split; [exact Hd|]. split; [exact Hax|]. exists (Z.to_nat lev). auto.
    - destruct (non_outcome LA HD HR w L method HLA B HI Mzero level axes x ox _ Hw Hl Hc) as (Hd & Hax & lev & _ & Hb & E). rewrite Hg in E. split; [exact Hd|]. split; [exact Hax|]. exists (Z.to_nat lev). split; [intros _; apply Hb|exact E]. }
  destruct Q as (Hd & Hax & lev & Hb & Ec). set (s := gather nax 0%nat (shp x)) in *. set (N := bwn_levels lev L s) in *. pose proof (good_axes_ok _ _ Hax) as Hgx. fold nax in Hgx.
  assert (Ln : List.length nax = 2%nat) by (unfold nax; rewrite map_length; exact Hl).
  assert (Q : A = bwn_approx Mb Mzero nax N x /\ D = map (fun j => PTup (map (fun k => bwn_band Mb Mzero nax k (bwn_approx Mb Mzero nax j x)) (bands2 sep))) (rev (seq 0 N))).
  { unfold bwn2_coeffs in Ec. injection Ec as _ Q1 Q2. auto. }
  destruct Q as [EA ED]. assert (EJ : J = N) by (unfold J; rewrite ED, map_length, rev_length, seq_length; reflexivity).
  set (nd := fun j => bwn_approx Mb Mzero nax j x).
  assert (Hlev : forall j, (j < N)%nat -> one_level2 LA w method axes sep (nd j) = Ok (map (fun c => bw_letter2 Mb nax sep c (nd j)) ["a"; "h"; "v"; "d"]%char)).
  { intros j Hj. destruct (bapprox_facts Mb Mzero nax j x Hw Hgx) as (F1 & F2 & F3 & F4 & F5). fold (nd j) in F1, F2, F3, F4, F5.
    rewrite (level2_at LA HD HR w L method axes sep g HLA B HI Hta (nd j)); rewrite ?F2; fold nax Mb; auto.
    - split; [exact F1|]. rewrite F4. exact Hg.
    - unfold tdtype. rewrite F4. exact Hd.
    - rewrite F5. apply (bwn_levels_fit lev j s Hj).
    - apply fsz_pos. rewrite F3. apply Hb. lia. }
  assert (Ha : forall j, bw_letter2 Mb nax sep "a"%char (nd j) = nd (S j)).
  { intros j. unfold bw_letter2, nd, bwn_approx. rewrite Ln. cbn [Nat.iter nat_rect repeat]. f_equal. unfold letter_band. destruct sep; reflexivity. }
  assert (Hnode : forall j, (j <= N)%nat -> node_at (one_level2 LA w method axes sep) ["a"; "h"; "v"; "d"]%char x (all_a j) = Ok (nd j)).
  { intros j. induction j as [|j IH]; intros HjN; [reflexivity|]. rewrite all_a_S, node_snoc'. cbn [memc existsb Ascii.eqb Bool.eqb orb]. rewrite IH by lia. cbn [rbind]. rewrite Hlev by lia. cbn [rbind map child Ascii.eqb Bool.eqb]. rewrite Ha. reflexivity. }
  assert (Hread : forall k, (Z.of_nat (List.length k) <= M)%Z -> read k = node_at (one_level2 LA w method axes sep) ["a"; "h"; "v"; "d"]%char x k).
  { intros k Hk. unfold read, Bk. rewrite (C54_reads_2d LA HD HR w L method axes sep g HLA B HI Hta h0 x maxlevel s1 M h k Hh0 Hw Hg Ht Hm Hh). unfold packet_read. destruct k; [reflexivity|]. rewrite (proj2 (Z.leb_le _ _)) by exact Hk. reflexivity. }
  assert (Hla : forall j, List.length (all_a j) = j) by (intros j; apply repeat_length).
  split.
  - rewrite Hread by (rewrite Hla; lia). rewrite EJ, Hnode by lia. rewrite EA. reflexivity.
  - intros j Hj. exists (bw_letter2 Mb nax sep "h"%char (nd (j - 1)%nat)), (bw_letter2 Mb nax sep "v"%char (nd (j - 1)%nat)), (bw_letter2 Mb nax sep "d"%char (nd (j - 1)%nat)). split.
    + rewrite ED. rewrite <- EJ. rewrite nth_error_map. rewrite (nth_error_nth' _ 0%nat) by (rewrite rev_length, seq_length; lia). cbn [option_map]. rewrite rev_nth by (rewrite seq_length; lia). rewrite seq_length, seq_nth by lia.
      replace (0 + (J - S (J - j)))%nat with (j - 1)%nat by lia. fold (nd (j - 1)%nat). unfold bw_letter2, letter_band, bands2. destruct sep; reflexivity.
    + assert (R : forall c, In c ["h"; "v"; "d"]%char -> read (all_a (j - 1) ++ [c]) = Ok (bw_letter2 Mb nax sep c (nd (j - 1)%nat))).
      { intros c Hin. rewrite Hread by (rewrite app_length, Hla; cbn [List.length]; lia). rewrite node_snoc'.
        replace (memc c ["a"; "h"; "v"; "d"]%char) with true by (destruct Hin as [<-|[<-|[<-|[]]]]; reflexivity). rewrite Hnode by lia. cbn [rbind]. rewrite Hlev by lia. cbn [rbind map].
        destruct Hin as [<-|[<-|[<-|[]]]]; reflexivity. }
      repeat split; apply R; cbn; auto.
Qed.
End PE.
