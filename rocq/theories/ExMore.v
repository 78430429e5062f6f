(** Concrete cases for C71, C72 and C73. *)
From Coq Require Import List Arith ZArith Lia Bool String Ascii Reals Permutation.
From Verif Require Import Base Sums Tensor TensorFacts Util Perm Plumb Accept Spec Conv1 PadFacts CoreFacts AnalysisInv Filters Wave1 Lin Examples Props1 Swt SpecSwt PropsSwt Packets SpecPk PacketFacts PacketConv PropsPk PropsPkDec PropsNd SpecMat SpecMatN LinAlg Mat1 Mat1Facts Mat1Call MatN MatNLoop MatOrth PropsMat1 PropsMatN PacketsM PkInv SpecPkM PropsPkM PropsPkM2 RealLA ExReal ExMat1 ExPkM PropsLin PropsBatch PropsBatch2 PropsNest PropsEnergyZ PropsPkE Conv3 Sep Tags PropsDict Learn LearnFacts PropsSwtE Conv2 UnifiedRec PropsAxisWise PropsAxisRec.
Import ListNotations.
Local Open Scope nat_scope.

(** swt of a batch of two signals of length 8: the two level analysis is the tail of the three level one *)
Theorem ex_C71_swt : let x := exT [2; 8] in
  swt_input x (AxInt 1) 1 /\ even_bank exW4 4 /\
  match swt x exW4 (Some 2%Z) (AxInt 1), swt x exW4 (Some 3%Z) (AxInt 1) with
  | Ok c1, Ok c2 => tl (pc_items c1) = skipn 2 (pc_items c2) /\ List.length (tl (pc_items c1)) = 2
  | _, _ => False end.
Proof. split; [repeat split; vm_compute; try lia; try congruence|]. split; [repeat split; vm_compute; try lia; try congruence|]. vm_compute. auto. Qed.

Lemma ex_nest method x l : orth_supported method = true -> wf x -> ttag x = f32 -> rank x = 2 -> 0 < nth 0 (shp x) 0 -> (0 < l)%Z ->
  exists o o' b A D, new_mwavedec db2 (Some l) (AxInt 0) method (Some (mode_name Mzero)) = Ok o /\ mw_call RLA o x = (o', Ok (mkPC b (PT A :: D))) /\
    wf A /\ ttag A = f32 /\ rank A = 2 /\ nth 0 (shp A) 0 = Nat.iter (bw_levels (Z.to_nat l) 4 (even_up (nth 0 (shp x) 0))) half_up (even_up (nth 0 (shp x) 0)) /\
    List.length D = bw_levels (Z.to_nat l) 4 (even_up (nth 0 (shp x) 0)).
Proof.
  intros Hm Hw Hg Hr Hn Hl. pose proof (RLA_ok method Hm) as HLA.
  destruct (proj2 (C40_accepts RLA RK_domain RK_formally_real db2 4 method Mzero HLA db2_ok db2_independent (Some l) 0%Z x Hw)) as (o & o' & c & Ho & Hc).
  - split; [unfold tdtype; rewrite Hg; reflexivity|]. rewrite Hr. cbn. split; [lia|]. split; [discriminate|lia].
  - pose proof Ho as Ho'. apply new_mw_inv in Ho' as E. subst o.
    destruct (mat1_outcome RLA RK_domain RK_formally_real db2 4 method Mzero HLA db2_ok db2_independent (Some l) 0%Z x o' c Hw Hc) as (_ & _ & _ & lev & Hlev & Ec).
    assert (E : lev = l) by (cbn in Hlev; destruct (l <=? 0)%Z; congruence). subst lev. rewrite Hr in *. cbn [norm_axis] in Ec. change (norm_axis 2 0) with 0 in *.
    set (x1 := ext_even Mzero [0] x) in *. assert (R1 : rank x1 = rank x) by (unfold x1, ext_even; apply rank_along).
    assert (N1 : nth 0 (shp x1) 0 = even_up (nth 0 (shp x) 0)) by (unfold x1; rewrite shp_ext_even; unfold gather; cbn [map upds]; rewrite nth_updn_eq by (fold (rank x); lia); reflexivity).
    destruct (bw_approx_facts (Bm RLA db2 method (ttag x)) Mzero 0 (bw_levels (Z.to_nat l) 4 (even_up (nth 0 (shp x) 0))) x1 (wf_make _ _ _) ltac:(lia)) as (F1 & F2 & F3 & F4).
    rewrite N1 in F4. subst c. unfold bw_coeffs in Hc. cbn [map] in Hc.
    eexists _, o', _, _, _. split; [exact Ho|]. split; [exact Hc|]. split; [exact F1|]. split; [rewrite F3; exact Hg|]. split; [rewrite F2, R1; exact Hr|].
    split; [exact F4|]. rewrite map_length, map_length, rev_length, seq_length. reflexivity.
Qed.
(** 16 samples, one level and then another one *)
Theorem ex_C71_matrix method : orth_supported method = true ->
  exists o1 o2 ox oy A D c2, let x := exR [16; 3] in
    new_mwavedec db2 (Some 1%Z) (AxInt 0) method (Some (mode_name Mzero)) = Ok o1 /\ new_mwavedec db2 (Some 2%Z) (AxInt 0) method (Some (mode_name Mzero)) = Ok o2 /\
    mw_call RLA o1 x = (ox, Ok (mkPC true (PT A :: D))) /\ mw_call RLA o1 A = (oy, Ok c2) /\ List.length (pc_items c2 ++ D) = 3 /\
    snd (mw_call RLA o2 x) = Ok (mkPC true (pc_items c2 ++ D)).
Proof.
  intros Hm. pose proof (RLA_ok method Hm) as HLA. set (x := exR [16; 3]).
  destruct (ex_nest method x 1 Hm (exR_wf _) eq_refl eq_refl ltac:(cbn; lia) eq_refl) as (o1 & ox & b & A & D & Ho1 & E1 & WA & TA & RA & NA & LD).
  change (bw_levels (Z.to_nat 1) 4 (even_up (nth 0 (shp x) 0))) with 1 in *. change (nth 0 (shp A) 0 = 8) in NA.
  destruct (ex_nest method A 1 Hm WA TA RA ltac:(lia) eq_refl) as (o1' & oy & b' & A' & D' & Ho1' & E2 & _ & _ & _ & _ & LD'). assert (o1' = o1) by congruence. subst o1'.
  rewrite NA in LD'. change (List.length D' = 1) in LD'.
  destruct (ex_nest method x 2 Hm (exR_wf _) eq_refl eq_refl ltac:(cbn; lia) eq_refl) as (o2 & o2' & b2 & A2 & D2 & Ho2 & E3 & _).
  pose proof (C71_matrix_1d RLA RK_domain RK_formally_real db2 4 method Mzero HLA db2_ok db2_independent 1 1 0%Z o1 o1 o2 x ox oy A b D _ (exR_wf _) Ho1 Ho1 Ho2 E1 E2) as Q.
  change (norm_axis (rank x) 0) with 0 in Q. rewrite NA in Q. change (8 <? 4) with false in Q. cbn iota in Q.
  assert (b = true). { pose proof Ho1 as Z1. apply new_mw_inv in Z1. subst o1. destruct (mat1_outcome RLA RK_domain RK_formally_real db2 4 method Mzero HLA db2_ok db2_independent (Some 1%Z) 0%Z x _ _ (exR_wf _) E1) as (_ & _ & _ & lev & _ & Ec). injection Ec. auto. }
  subst b. exists o1, o2, ox, oy, A, D, (mkPC b' (PT A' :: D')). cbv zeta. split; [exact Ho1|]. split; [exact Ho2|]. split; [exact E1|]. split; [exact E2|]. split; [cbn [pc_items app List.length]; rewrite app_length; lia|]. exact Q.
Qed.
(** 6 samples: the one level approximation has 3 = L - 1 samples; a two level analysis stops there, a second call does not *)
Theorem ex_C71_corner method : orth_supported method = true ->
  exists o1 o2 ox oy A b D c2, let x := exR [6; 3] in
    new_mwavedec db2 (Some 1%Z) (AxInt 0) method (Some (mode_name Mzero)) = Ok o1 /\ new_mwavedec db2 (Some 2%Z) (AxInt 0) method (Some (mode_name Mzero)) = Ok o2 /\
    mw_call RLA o1 x = (ox, Ok (mkPC b (PT A :: D))) /\ mw_call RLA o1 A = (oy, Ok c2) /\ nth 0 (shp A) 0 = 3 /\
    snd (mw_call RLA o2 x) = Ok (mkPC b (PT A :: D)) /\ 2 <= List.length (pc_items c2).
Proof.
  intros Hm. pose proof (RLA_ok method Hm) as HLA. set (x := exR [6; 3]).
  destruct (ex_nest method x 1 Hm (exR_wf _) eq_refl eq_refl ltac:(cbn; lia) eq_refl) as (o1 & ox & b & A & D & Ho1 & E1 & WA & TA & RA & NA & LD).
  change (nth 0 (shp A) 0 = 3) in NA.
  destruct (ex_nest method A 1 Hm WA TA RA ltac:(lia) eq_refl) as (o1' & oy & b' & A' & D' & Ho1' & E2 & _). assert (o1' = o1) by congruence. subst o1'.
  destruct (ex_nest method x 2 Hm (exR_wf _) eq_refl eq_refl ltac:(cbn; lia) eq_refl) as (o2 & o2' & b2 & A2 & D2 & Ho2 & E3 & _).
  pose proof (C71_matrix_1d_corner RLA RK_domain RK_formally_real db2 4 method Mzero HLA db2_ok db2_independent 1 1 0%Z o1 o1 o2 x ox oy A b D _ (exR_wf _) Ho1 Ho1 Ho2 E1 E2 NA) as Q.
  exists o1, o2, ox, oy, A, b, D, (mkPC b' (PT A' :: D')). cbv zeta. destruct Q as [Q1 Q2]. repeat (split; [eassumption|]). exact Q2.
Qed.
(** 9 samples, zero padding *)
Theorem ex_C73 method : orth_supported method = true ->
  exists o o' b A D, new_mwavedec db2 (Some 2%Z) (AxInt 0) method (Some (mode_name Mzero)) = Ok o /\ mw_call RLA o (exR [9; 3]) = (o', Ok (mkPC b (PT A :: D))) /\
    nth 0 (shp A) 0 = 3 /\ List.length D = 2 /\ energies (pc_tensors (mkPC b (PT A :: D))) = energy (exR [9; 3]).
Proof.
  intros Hm. pose proof (RLA_ok method Hm) as HLA. set (x := exR [9; 3]).
  destruct (ex_nest method x 2 Hm (exR_wf _) eq_refl eq_refl ltac:(cbn; lia) eq_refl) as (o1 & ox & b & A & D & Ho1 & E1 & _ & _ & _ & NA & LD).
  exists o1, ox, b, A, D. split; [exact Ho1|]. split; [exact E1|]. split; [exact NA|]. split; [exact LD|].
  apply (C73_energy_1d RLA RK_domain RK_formally_real db2 4 method HLA db2_ok db2_independent (Some 2%Z) 0%Z o1 x ox _ (exR_wf _) Ho1 E1).
Qed.
(** a packet object with a history, 13 samples along axis 0, two levels *)
Theorem ex_C72_C73_packets method : orth_supported method = true ->
  let B := packet1b RLA db2 method 0 in let x := exR [13; 3] in
  exists s1 o o' b A D V, pk_transform B (pk_run B (pk_new B ([], [])) (ex_hist [13; 4] [6; 7])) x None = (s1, Ok tt) /\
    new_mwavedec db2 (Some 2%Z) (AxInt 0) method (Some (mode_name Mzero)) = Ok o /\ mw_call RLA o x = (o', Ok (mkPC b (PT A :: D))) /\ List.length D = 2 /\
    snd (pk_get B (pk_run B s1 [ORead (ks "da")]) (ks "aa")) = Ok A /\
    (exists d, nth_error D 1 = Some (PT d) /\ snd (pk_get B (pk_run B s1 [ORead (ks "da")]) (ks "d")) = Ok d) /\
    sumL (words ["a"; "d"]%char 2) (fun p => energy (V p)) = energy x.
Proof.
  intros Hm B x. pose proof (RLA_ok method Hm) as HLA.
  assert (Hax : axis_ok (rank x) 0) by (split; cbn; lia).
  assert (Hf : float_tensor x) by (left; reflexivity).
  assert (Hw : wf x) by apply exR_wf.
  assert (N1 : forall p, word ["a"; "d"]%char p -> List.length p = 2 -> exists s1 v, pk_transform B (pk_run B (pk_new B ([], [])) (ex_hist [13; 4] [6; 7])) x None = (s1, Ok tt) /\ p_max s1 = Some 2%Z /\ snd (pk_get B (pk_run B s1 [ORead (ks "da")]) p) = Ok v).
  { intros p Hp Hl. destruct (C54_default_level_1d RLA RK_domain RK_formally_real db2 4 method HLA db2_ok db2_independent 0 f32 (ex_hist [13; 4] [6; 7]) x [ORead (ks "da")] p) as (s1 & A & Ht & HM & HA & HR); auto; [apply ex_hist_data|apply Nat.leb_le; reflexivity|].
    exists s1. eexists. split; [exact Ht|]. split; [exact HM|]. apply HR; [repeat constructor|exact Hp|rewrite Hl; apply le_n]. }
  destruct (N1 (ks "aa")) as (s1 & v & Ht & HM & Hv); [repeat constructor; cbn; auto|reflexivity|].
  destruct (ex_nest method x 2 Hm Hw eq_refl eq_refl ltac:(cbn; lia) eq_refl) as (o & ox & b & A & D & Ho & E1 & _ & _ & _ & _ & LD). change (List.length D = 2) in LD.
  set (V := fun p => match snd (pk_get B (pk_run B s1 [ORead (ks "da")]) p) with Ok u => u | _ => x end).
  destruct (C72_packets_wavedec_1d RLA RK_domain RK_formally_real db2 4 method f32 HLA db2_ok db2_independent 0%Z (ex_hist [13; 4] [6; 7]) x None s1 2%Z [ORead (ks "da")] (Some 2%Z) o ox b A D) as [R1 R2]; auto.
  - apply ex_hist_data.
  - repeat constructor.
  - rewrite LD. lia.
  - rewrite LD in *. exists s1, o, ox, b, A, D, V. split; [exact Ht|]. split; [exact Ho|]. split; [exact E1|]. split; [exact LD|]. split; [exact R1|].
    split; [destruct (R2 1) as (d & Hd & Hr); [lia|]; exists d; split; [exact Hd|exact Hr]|].
    apply (C73_packets_1d RLA RK_domain RK_formally_real db2 4 method f32 HLA db2_ok db2_independent 0%Z (ex_hist [13; 4] [6; 7]) x None s1 2%Z [ORead (ks "da")] 2 _ V); auto.
    + apply ex_hist_data.
    + repeat constructor.
    + vm_compute. repeat constructor; cbn; intuition discriminate.
    + intros p. split.
      * intros Hp. pose proof (words_word ["a"; "d"]%char 2) as W. rewrite Forall_forall in W. destruct (W p Hp). auto.
      * intros [H1 H2]. apply words_in; auto.
    + intros p Hp. pose proof (words_word ["a"; "d"]%char 2) as W. rewrite Forall_forall in W. destruct (W p Hp) as [W1 W2].
      destruct (N1 p W1 W2) as (s1' & v' & Ht' & _ & Hv'). assert (s1' = s1) by congruence. subst s1'. unfold V. fold B. rewrite Hv'. reflexivity.
Qed.

(** the dictionaries of a container, back to front *)
Definition flip {K : CRing} (v : pyval K) : pyval K := match v with PDict d => PDict (rev d) | _ => v end.
Lemma flip_reordered {K : CRing} (v : pyval K) : match v with PDict d => NoDup (map fst d) | _ => True end -> reordered v (flip v).
Proof. destruct v as [t|l|d|]; intros H; try (apply reo_same; discriminate). constructor; [exact H|apply Permutation_rev]. Qed.
Lemma flip_all {K : CRing} (l : list (pyval K)) : Forall (fun v => match v with PDict d => NoDup (map fst d) | _ => True end) l -> Forall2 reordered l (map flip l).
Proof. induction 1; constructor; [apply flip_reordered; assumption|assumption]. Qed.
Definition keys_are {K : CRing} (ks : list string) (v : pyval K) : bool := match v with PDict d => list_eqb String.eqb (map fst d) ks | _ => true end.
Lemma keys_are_spec {K : CRing} ks (v : pyval K) : keys_are ks v = true -> match v with PDict d => map fst d = ks | _ => True end.
Proof.
  destruct v as [t|l|d|]; auto. cbn. generalize (map fst d). intros l. revert ks. induction l as [|a l IH]; intros [|k ks]; cbn; try congruence. intros H. apply andb_true_iff in H as [H1 H2]. apply String.eqb_eq in H1. subst a. f_equal. apply IH, H2.
Qed.
Lemma keys_flip {K : CRing} ks (l : list (pyval K)) : NoDup ks -> forallb (keys_are ks) l = true -> Forall2 reordered l (map flip l).
Proof.
  intros Hn H. apply flip_all. apply Forall_forall. intros v Hv. rewrite forallb_forall in H. pose proof (keys_are_spec ks v (H v Hv)) as Q. destruct v; auto. rewrite Q. exact Hn.
Qed.
Lemma keys_uniform {K : CRing} ks n (l : list (pyval K)) : Forall (fun k => String.length k = n) ks -> forallb (keys_are ks) l = true -> Forall uniform_keys l /\ (n = 3 -> Forall keys_of_3 l).
Proof.
  intros Hk H. rewrite forallb_forall in H. assert (Q : forall d, In (PDict d) l -> Forall (fun kv => String.length (fst kv) = n) d).
  { intros d Hd. pose proof (keys_are_spec ks _ (H _ Hd)) as E. cbn in E. rewrite Forall_forall in *. intros kv Hin. apply Hk. rewrite <- E. apply in_map, Hin. }
  split; [|intros ->]; apply Forall_forall; intros v Hv; destruct v; cbn; auto. exists n. auto.
Qed.
Definition wkeys : list string := ["aad"; "ada"; "add"; "daa"; "dad"; "dda"; "ddd"]%string.
Definition fkeys : list string := ["daa"; "ada"; "dda"; "aad"; "dad"; "add"; "ddd"]%string.
Lemma wkeys_ok : NoDup wkeys /\ Forall (fun k => String.length k = 3) wkeys.
Proof. split; repeat constructor; cbn; intuition discriminate. Qed.
Lemma fkeys_ok : NoDup fkeys /\ Forall (fun k => String.length k = 3) fkeys.
Proof. split; repeat constructor; cbn; intuition discriminate. Qed.
(** a 4 x 3 x 4 volume, two levels of wavedec3 and of fswavedec3 *)
Theorem ex_C74 : let x := exT [4; 3; 4] in
  exists c f y, wavedec3 x exW2 (Some "zero"%string) (Some 2%Z) AxNone = Ok c /\ fswavedec3 x exW2 (Some "zero"%string) (Some 2%Z) AxNone = Ok f /\
      Forall2 reordered (pc_items c) (map flip (pc_items c)) /\ List.length (pc_items c) = 3 /\
      Forall2 reordered (pc_items f) (map flip (pc_items f)) /\ List.length (pc_items f) = 3 /\ Forall uniform_keys (pc_items f) /\
      waverec3 (mkPC false (map flip (pc_items c))) exW2 AxNone = Ok y /\ fswaverec3 (mkPC false (map flip (pc_items f))) exW2 AxNone = Ok y /\ shp y = [4; 4; 4].
Proof.
  cbv zeta. set (x := exT [4; 3; 4]).
  assert (H : match wavedec3 x exW2 (Some "zero"%string) (Some 2%Z) AxNone, fswavedec3 x exW2 (Some "zero"%string) (Some 2%Z) AxNone with
    | Ok c, Ok f => forallb (keys_are wkeys) (pc_items c) = true /\ List.length (pc_items c) = 3 /\ forallb (keys_are fkeys) (pc_items f) = true /\ List.length (pc_items f) = 3 /\
      match waverec3 (mkPC false (map flip (pc_items c))) exW2 AxNone, fswaverec3 (mkPC false (map flip (pc_items f))) exW2 AxNone with Ok y, Ok y' => y = y' /\ shp y = [4; 4; 4] | _, _ => False end
    | _, _ => False end) by (vm_compute; auto 10).
  destruct (wavedec3 _ _ _ _ _) as [c|e]; [|contradiction]. destruct (fswavedec3 _ _ _ _ _) as [f|e]; [|contradiction]. destruct H as (H1 & H2 & H3 & H4 & H5).
  destruct (waverec3 _ _ _) as [y|e] eqn:E; [|contradiction]. destruct (fswaverec3 _ _ _) as [y'|e] eqn:E'; [|contradiction]. destruct H5 as [-> H5].
  exists c, f, y'. split; [reflexivity|]. split; [reflexivity|]. split; [apply (keys_flip wkeys); [apply wkeys_ok|exact H1]|]. split; [exact H2|]. split; [apply (keys_flip fkeys); [apply fkeys_ok|exact H3]|]. split; [exact H4|].
  split; [apply (keys_uniform fkeys 3); [apply fkeys_ok|exact H3]|]. auto.
Qed.
(** MatrixWavedec3 / MatrixWaverec3 with db2 on a 5 x 6 x 8 volume *)
Theorem ex_C74_matrix method : orth_supported method = true -> exists o o' c r,
  new_mwavedecn 3 db2 (Some 4%Z) (AxSeq [-3; -2; -1]%Z) method (Some (mode_name Mzero)) true = Ok o /\ mw3_call RLA o (exR [5; 6; 8]) = (o', Ok c) /\
  new_mwaverecn 3 db2 (AxSeq [-3; -2; -1]%Z) method true = Ok r /\ List.length (pc_items c) = 2 /\ Forall2 reordered (pc_items c) (map flip (pc_items c)) /\
  exists y, snd (fst (mr3_call RLA r (map flip (pc_items c)))) = Ok y /\ snd (fst (mr3_call RLA r (pc_items c))) = Ok y.
Proof.
  intros Hm. pose proof (RLA_ok method Hm) as HLA.
  destruct (proj2 (C45_accepts RLA RK_domain RK_formally_real db2 4 method Mzero HLA db2_ok db2_independent (Some 4%Z) [-3; -2; -1]%Z (exR [5; 6; 8]) (exR_wf _) eq_refl)) as (o & o' & c & Ho & Hc).
  { split; [reflexivity|]. split; [|reflexivity]. split; cbn; [repeat constructor; lia|repeat constructor; cbn; intuition discriminate]. }
  assert (Hr : exists r, new_mwaverecn (K := RK) 3 db2 (AxSeq [-3; -2; -1]%Z) method true = Ok r) by (unfold new_mwaverecn; rewrite Hm; eexists; reflexivity). destruct Hr as [r Hr].
  destruct (C45_coefficients RLA RK_domain RK_formally_real db2 4 method Mzero HLA db2_ok db2_independent _ _ o _ o' c (exR_wf _) Ho Hc) as (lev & A & [-> _] & _ & Hcc).
  assert (EJ : bwn_levels (Z.to_nat 4) 4 (gather (map (norm_axis (rank (exR [5; 6; 8]))) [-3; -2; -1]%Z) 0 (shp (exR [5; 6; 8]))) = 1) by (vm_compute; reflexivity).
  rewrite EJ in Hcc. unfold bwn3_coeffs in Hcc. cbn [seq rev app map] in Hcc.
  assert (Hk : forallb (keys_are fkeys) (pc_items c) = true) by (rewrite Hcc; cbn [pc_items forallb keys_are]; rewrite map_map; cbn [fst map bands3]; reflexivity).
  assert (Hlen : List.length (pc_items c) = 2) by (rewrite Hcc; reflexivity).
  exists o, o', c, r. split; [exact Ho|]. split; [exact Hc|]. split; [exact Hr|]. split; [exact Hlen|].
  split; [apply (keys_flip fkeys); [apply fkeys_ok|exact Hk]|].
  pose proof (C45_reconstruction RLA RK_domain RK_formally_real db2 4 method Mzero HLA db2_ok db2_independent _ _ o _ o' c r (exR_wf _) Ho Hc Hr ltac:(rewrite Hlen; lia)) as Hy.
  eexists. split; [|exact Hy]. rewrite <- Hy. f_equal. refine (C74_matrix_3d RLA r (pc_items c) _ _ _ _ Hy).
  - apply (keys_flip fkeys); [apply fkeys_ok|exact Hk].
  - apply (keys_uniform fkeys 3); [apply fkeys_ok|exact Hk|reflexivity].
Qed.

(** db2 applied to a batch of two signals of length 8: four times the energy of the data is the energy of the approximation,
    plus that of the level 2 details, plus twice that of the level 1 details *)
Theorem ex_C75 : exists A D2 D1, swt (exR [2; 8]) db2 (Some 2%Z) (AxInt (-1)) = Ok (mkPC true [PT A; PT D2; PT D1]) /\
  (4 * energy (exR [2; 8]%nat) = energy A + energy D2 + 2 * energy D1)%R.
Proof.
  assert (Hin : swt_input (exR [2; 8]) (AxInt (-1)) (-1)).
  { split; [apply exR_wf|]. split; [reflexivity|]. split; [reflexivity|]. split; [unfold axis_ok, rank; cbn [exR shp List.length]; lia|]. change (0 < 8)%nat. lia. }
  pose proof (C23_swt_formula (K := RK) (exR [2; 8]) db2 4 (Some 2%Z) (AxInt (-1)) (-1) Hin) as E.
  match type of E with ?P -> _ => assert (Hb : P) by (split; [reflexivity|split; [reflexivity|split; [lia|reflexivity]]]) end.
  specialize (E Hb). cbv zeta in E. specialize (E (or_intror eq_refl)).
  destruct (C75_swt_energy (K := RK) _ db2 4 (Some 2%Z) (AxInt (-1)) (-1)%Z _ (real_cancel2 RK_formally_real) Hin db2_ok (or_intror eq_refl) E) as (A & D & EC & HD & G).
  change (levels_of _ _) with 2 in HD, G. destruct D as [|D2 [|D1 [|? ?]]]; try discriminate HD.
  exists A, D2, D1. split; [rewrite E, EC; reflexivity|].
  change (((1 + 1) + (1 + 1)) * energy (exR [2; 8]%nat) = energy A + (0 + 1 * energy D2 + (1 + 1) * energy D1))%R in G.
  replace 4%R with ((1 + 1) + (1 + 1))%R by ring. rewrite G. ring.
Qed.

(** wavedec2 over axes (0, -1) of a (5, 2, 6) tensor is wavedec over axis -1 followed by wavedec over axis 0 of both results: the
    hypotheses of C76_wavedec2 hold and the call succeeds *)
Definition succeeds {A} (r : result A) : bool := match r with Ok _ => true | Raise _ => false end.
Lemma succeeds_ex {A} (r : result A) : succeeds r = true -> exists a, r = Ok a.
Proof. destruct r; [eexists; reflexivity|discriminate]. Qed.
Lemma ax02 : axes_ok 3 [0%Z; (-1)%Z].
Proof. split; [repeat constructor; lia|]. repeat constructor; cbn; intuition discriminate. Qed.
Theorem ex_C76 : let x := exT [5; 2; 6] in
  exists lo hi ll hl lh hh, wavedec x exW4 (Some (mode_name Mreflect)) (Some 1%Z) (-1) = Ok (mkPC true [PT lo; PT hi]) /\
    wavedec lo exW4 (Some (mode_name Mreflect)) (Some 1%Z) 0 = Ok (mkPC true [PT ll; PT hl]) /\
    wavedec hi exW4 (Some (mode_name Mreflect)) (Some 1%Z) 0 = Ok (mkPC true [PT lh; PT hh]) /\
    wavedec2 x exW4 (Some (mode_name Mreflect)) (Some 1%Z) (AxSeq [0%Z; (-1)%Z]) = Ok (mkPC false [PT ll; PTup [hl; lh; hh]]).
Proof.
  cbv zeta. assert (S : succeeds (wavedec2 (exT [5; 2; 6]) exW4 (Some (mode_name Mreflect)) (Some 1%Z) (AxSeq [0%Z; (-1)%Z])) = true) by (vm_compute; reflexivity).
  apply succeeds_ex in S as (c & E). pose proof E as E0.
  apply (C76_wavedec2 (exT [5; 2; 6]) exW4 Mreflect 4 0 (-1) c eq_refl eq_refl eq_refl ltac:(lia) eq_refl ax02) in E0 as (lo & hi & ll & hl & lh & hh & E1 & E2 & E3 & ->).
  exists lo, hi, ll, hl, lh, hh. auto.
Qed.
(** ... and fswaverec2 of four different (4, 2, 5) tensors is waverec along axis 0 followed by waverec along axis -1 *)
Definition ex_leaf (s : string) : tensor ZK := tmake (K := ZK) f32 [4; 2; 5] (fun idx => Z.of_nat (nth 0 idx 0 * 7 + nth 1 idx 0 * 3 + nth 2 idx 0 + List.length (filter (Ascii.eqb "d") (list_ascii_of_string s)) * 5 + match s with String "d" _ => 1 | _ => 0 end)).
Theorem ex_C76_rec : exists Y : string -> tensor ZK, (forall s, String.length s = 2 -> Y s = ex_leaf s) /\
  waverec [PT (ex_leaf "aa"); PT (ex_leaf "da")] exW4 (AxInt 0) = Ok (Y "a"%string) /\
  waverec [PT (ex_leaf "ad"); PT (ex_leaf "dd")] exW4 (AxInt 0) = Ok (Y "d"%string) /\
  waverec [PT (Y "a"%string); PT (Y "d"%string)] exW4 (AxInt (-1)) = Ok (Y ""%string) /\
  fswaverec2 (mkPC false [PT (ex_leaf "aa"); PDict [("da", ex_leaf "da"); ("ad", ex_leaf "ad"); ("dd", ex_leaf "dd")]%string]) exW4 (AxSeq [0%Z; (-1)%Z]) = Ok (Y ""%string).
Proof.
  destruct (C76_synthesis (K := ZK) (Sfswaverec2 (AxSeq [0%Z; (-1)%Z])) exW4 4 [0%Z; (-1)%Z] ex_leaf [4; 2; 5] f32 eq_refl eq_refl ltac:(lia) eq_refl eq_refl ax02)
    as (Y & Y1 & Y2 & Y3).
  - intros s _ _. split; [apply wf_make|split; reflexivity].
  - reflexivity.
  - repeat constructor.
  - exists Y. split; [exact Y1|].
    pose proof (Y2 "a"%string (adw "a"%string eq_refl) ltac:(cbn; lia)) as A. pose proof (Y2 "d"%string (adw "d"%string eq_refl) ltac:(cbn; lia)) as D.
    pose proof (Y2 ""%string (adw ""%string eq_refl) ltac:(cbn; lia)) as R. rewrite (Y1 "aa"%string eq_refl), (Y1 "da"%string eq_refl) in A. rewrite (Y1 "ad"%string eq_refl), (Y1 "dd"%string eq_refl) in D.
    split; [exact A|]. split; [exact D|]. split; [exact R|exact Y3].
Qed.

(** the node "ad" assigned by hand: reading "ada" computes it from the assigned value and keeps it, reading "aad" recomputes the whole
    path from the root and replaces it *)
Definition ex77 : packet exP := pk_set exP (fst (pk_transform exP (pk_new exP tt) (exT [8]) (Some 3%Z))) ["a"; "d"]%char (exT [2]).
Definition sameT (t u : tensor ZK) : bool := list_eqb Nat.eqb (shp t) (shp u) && list_eqb Z.eqb (dat t) (dat u).
Theorem ex_C77 : p_max ex77 = Some 3%Z /\ kget (p_data ex77) [] <> None /\
  nearest (kget (p_data ex77)) ["a"; "d"]%char ["a"]%char /\ nearest (kget (p_data ex77)) [] ["a"; "a"; "d"]%char /\
  kget (p_data (fst (pk_get exP ex77 ["a"; "d"; "a"]%char))) ["a"; "d"]%char = Some (exT [2]) /\
  kget (p_data (fst (pk_get exP ex77 ["a"; "a"; "d"]%char))) ["a"; "d"]%char <> Some (exT [2]) /\
  kget (p_data (fst (pk_get exP ex77 ["a"; "a"; "d"]%char))) [] = Some (exT [8]).
Proof.
  assert (N : forall r t, forallb (fun n => match kget (p_data ex77) (r ++ firstn (S n) t) with None => true | _ => false end) (seq 0 (List.length t)) = true -> nearest (kget (p_data ex77)) r t).
  { intros r t H t1 t2 -> Hne. rewrite forallb_forall in H. destruct t1 as [|c t1]; [congruence|]. specialize (H (List.length t1)).
    rewrite app_length in H. cbn [List.length] in H. specialize (H ltac:(apply in_seq; lia)). rewrite firstn_app in H. cbn [List.length] in H.
    rewrite Nat.sub_diag, app_nil_r in H. change (S (List.length t1)) with (List.length (c :: t1)) in H. rewrite firstn_all in H. destruct (kget _ _); [discriminate|reflexivity]. }
  split; [reflexivity|]. split; [discriminate|]. split; [apply N; vm_compute; reflexivity|]. split; [apply N; vm_compute; reflexivity|].
  split; [vm_compute; reflexivity|]. split; [|vm_compute; reflexivity].
  intros H. assert (E : match kget (p_data (fst (pk_get exP ex77 ["a"; "a"; "d"]%char))) ["a"; "d"]%char with Some t => sameT t (exT [2]) | None => true end = false) by (vm_compute; reflexivity).
  rewrite H in E. vm_compute in E. discriminate.
Qed.

(** the Daubechies filter db2 has exactly two vanishing moments *)
From Verif Require Import PropsMoments.
Theorem ex_C78_db2 : vanishing_moments (K := RK) 2 (dec_hi db2) /\ ~ vanishing_moments (K := RK) 3 (dec_hi db2).
Proof.
  assert (Hq : (q8 <> 0)%R) by (intros E; pose proof q8_sq as H; rewrite E in H; Lra.lra).
  split.
  - intros [|[|q]] Hq2; [cbn; unfold s3; Lra.lra|cbn; Lra.lra|lia].
  - intros H. specialize (H 2 ltac:(lia)). cbn in H.
    assert (E : (q8 * s3 = 0)%R) by Lra.lra. apply Rmult_integral in E. destruct E as [E|E]; [contradiction|]. pose proof s3_sq as H3. rewrite E in H3. Lra.lra.
Qed.
