(** The padded-transform back ends of the packet classes: one analysis step, one synthesis step, cropping. *)
From Coq Require Import List Arith ZArith Lia Bool String Ascii.
From Verif Require Import Base Sums Tensor TensorFacts Util Perm Plumb Accept Spec Conv1 Conv2 PadFacts CoreFacts Analysis Filters Wave1 Wave1Inv Rec1 Lin Spec2 WaveN RecN Sep SpecSep SepFacts Examples Tags Props1 Props2 PropsSep Packets SpecPk PacketFacts.
Import ListNotations.

Section PC.
Context {K : CRing}.
Implicit Types t u x : tensor K.
Implicit Types w : wavelet K.

(** ** cropping a tensor that agrees with a smaller one *)
Lemma agrees_permute p t u : is_perm p (rank t) -> agrees_on t u -> agrees_on (permute_nat t p) (permute_nat u p).
Proof.
  intros Hp (Hl & Ht & H). assert (Hpu : is_perm p (rank u)) by (unfold rank in *; rewrite Hl; exact Hp).
  split; [cbn; rewrite !gather_length; reflexivity|]. split; [exact Ht|].
  intros idx Hv. cbn [shp permute_nat tmake] in Hv.
  assert (Hv' : valid (unperm p idx) (shp t)).
  { pose proof (valid_unperm p (rank t) idx _ Hp ltac:(rewrite gather_length; apply is_perm_length; exact Hp) Hv) as V.
    rewrite (unperm_gather p (rank t)) in V by auto. exact V. }
  destruct (H _ Hv') as [H1 H2].
  assert (Hvu : valid idx (gather p 0 (shp u))).
  { pose proof (valid_gather p (rank u) _ _ Hpu eq_refl H1) as V.
    rewrite (gather_unperm p (rank t)) in V; [exact V|exact Hp|]. rewrite (valid_length _ _ Hv), gather_length. apply is_perm_length. exact Hp. }
  split; [exact Hvu|]. rewrite !get_permute' by assumption. exact H2.
Qed.
Lemma agrees_narrow t u d : d < rank t -> agrees_on t u -> agrees_on t (narrow u d 0 (nth d (shp t) 0)).
Proof.
  intros Hd (Hl & Ht & H). split; [cbn; rewrite updn_length; exact Hl|]. split; [exact Ht|].
  intros idx Hv. destruct (H idx Hv) as [H1 H2].
  assert (V : valid idx (updn d (nth d (shp t) 0) (shp u))).
  { apply valid_intro; [rewrite updn_length; rewrite (valid_length _ _ H1); reflexivity|]. rewrite updn_length. intros i Hi.
    destruct (Nat.eq_dec i d) as [->|Hne].
    - rewrite nth_updn_eq by exact Hi. apply valid_nth; [exact Hv|unfold rank in Hd; exact Hd].
    - rewrite nth_updn_ne by congruence. apply valid_nth; assumption. }
  split; [exact V|]. rewrite get_narrow by exact V. rewrite Nat.add_0_r, updn_same. exact H2.
Qed.
Lemma agrees_same t u : wf t -> wf u -> agrees_on t u -> shp u = shp t -> u = t.
Proof. intros Ht Hu (_ & Hg & H) Hs. apply t_ext; auto. intros idx Hv. rewrite Hs in Hv. apply H. exact Hv. Qed.

Lemma swap_inv a b r : a < r -> b < r -> inv_perm (map (swapn a b) (seq 0 r)) = map (swapn b a) (seq 0 r).
Proof.
  intros Ha Hb. pose proof (swap_perm a b r Ha Hb) as Hp. unfold inv_perm. rewrite map_length, seq_length.
  apply map_ext_in. intros d Hd. apply in_seq in Hd. 
  assert (E : swapn b a d = swapn a b d) by (unfold swapn; destruct (Nat.eqb_spec d a), (Nat.eqb_spec d b); congruence). rewrite E.
  assert (Hl : swapn a b d < r) by (apply swapn_lt; lia).
  transitivity (index_of (nth (swapn a b d) (map (swapn a b) (seq 0 r)) 0) (map (swapn a b) (seq 0 r))).
  - f_equal. rewrite nth_map_seq by exact Hl. rewrite swapn_invol. reflexivity.
  - apply index_of_nth; [apply (is_perm_nodup _ _ Hp)|rewrite map_length, seq_length; exact Hl].
Qed.
Lemma transpose_invol t a b : wf t -> a < rank t -> b < rank t -> transpose (transpose t a b) b a = t.
Proof.
  intros Hw Ha Hb. unfold transpose at 1. assert (Hr : rank (transpose t a b) = rank t) by (unfold rank; cbn; rewrite gather_length, map_length, seq_length; reflexivity).
  rewrite Hr, <- (swap_inv a b (rank t) Ha Hb). apply permute_inv; [exact Hw|]. apply swap_perm; assumption.
Qed.
Lemma rank_transpose t a b : rank (transpose t a b) = rank t.
Proof. unfold rank. cbn. rewrite gather_length, map_length, seq_length. reflexivity. Qed.
Lemma nth_shp_transpose t a b d : d < rank t -> nth d (shp (transpose t a b)) 0 = nth (swapn a b d) (shp t) 0.
Proof. intros Hd. cbn. unfold gather. rewrite map_map. rewrite nth_map_seq by exact Hd. reflexivity. Qed.

Lemma shape_at_ok t axis : axis_ok (rank t) axis -> shape_at t axis = Ok (nth (norm_axis (rank t) axis) (shp t) 0).
Proof.
  intros [H1 H2]. unfold shape_at. replace ((- Z.of_nat (rank t) <=? axis)%Z && (axis <? Z.of_nat (rank t))%Z) with true; [reflexivity|].
  symmetry. apply andb_true_intro. split; [apply Z.leb_le|apply Z.ltb_lt]; lia.
Qed.
Lemma shape_at_inv t axis n : shape_at t axis = Ok n -> axis_ok (rank t) axis.
Proof.
  unfold shape_at, axis_ok. destruct (Z.leb_spec (- Z.of_nat (rank t)) axis); [|discriminate]. destruct (Z.ltb_spec axis (Z.of_nat (rank t))); [|discriminate]. intros _. lia.
Qed.
Lemma even_up_cases n : even_up n = n \/ even_up n = n + 1.
Proof. unfold even_up. pose proof (Nat.mod_upper_bound n 2). lia. Qed.

Lemma crop1_ok axis m t : wf t -> axis_ok (rank t) axis -> let a := norm_axis (rank t) axis in
  crop1 axis (ext_even m [a] t) t = Ok t.
Proof.
  intros Hw Hax a. assert (Ha : a < rank t) by (apply norm_axis_lt; exact Hax). pose proof (good_axes1 _ _ Ha) as Hg.
  pose proof (ext_even_agrees m [a] t Hw Hg) as Hag. set (r := ext_even m [a] t) in *.
  assert (Hs : shp r = updn a (even_up (nth a (shp t) 0)) (shp t)) by (unfold r; rewrite shp_ext_even; reflexivity).
  assert (Hr : rank r = rank t) by (unfold rank; rewrite Hs, updn_length; reflexivity).
  assert (Hwr : wf r) by apply wf_make.
  unfold crop1. rewrite (shape_at_ok r), (shape_at_ok t) by (rewrite ?Hr; exact Hax). rewrite Hr. cbn [rbind]. fold a.
  rewrite Hs, nth_updn_eq by exact Ha.
  destruct (even_up_cases (nth a (shp t) 0)) as [E|E]; rewrite E in *.
  - rewrite Nat.eqb_refl. f_equal. apply agrees_same; auto. rewrite Hs. apply updn_same.
  - destruct (Nat.eqb_spec (nth a (shp t) 0 + 1) (nth a (shp t) 0)); [lia|]. rewrite Nat.eqb_refl. f_equal.
    change (Z.to_nat (if (axis <? 0)%Z then (axis + Z.of_nat (rank t))%Z else axis)) with a.
    set (e := rank t - 1). assert (He : e < rank t) by lia.
    assert (EN : slice_dropend (transpose r a e) e 1 = transpose t a e).
    { unfold slice_dropend. rewrite nth_shp_transpose by lia.
      assert (Esw : swapn a e e = a) by (unfold swapn; destruct (Nat.eqb_spec e a); [congruence|rewrite Nat.eqb_refl; reflexivity]).
      rewrite Esw, Hs, nth_updn_eq by exact Ha. replace (nth a (shp t) 0 + 1 - 1) with (nth e (shp (transpose t a e)) 0) by (rewrite nth_shp_transpose, Esw by lia; lia).
      assert (Hp : is_perm (map (swapn a e) (seq 0 (rank t))) (rank t)) by (apply swap_perm; assumption).
      assert (HagT : agrees_on (transpose t a e) (transpose r a e)) by (unfold transpose; rewrite Hr; apply agrees_permute; assumption).
      apply agrees_same; [apply wf_make|apply wf_make|apply agrees_narrow; [rewrite rank_transpose; exact He|exact HagT]|].
      cbn [narrow shp tmake]. rewrite nth_shp_transpose, Esw by exact He. apply nth_ext with (d := 0) (d' := 0).
      - rewrite updn_length. cbn. rewrite !gather_length, !map_length, !seq_length. exact Hr.
      - rewrite updn_length. change (List.length (shp (transpose r a e))) with (rank (transpose r a e)). rewrite rank_transpose, Hr. intros i Hi.
        rewrite (nth_shp_transpose t) by exact Hi. destruct (Nat.eq_dec i e) as [->|Hne].
        + rewrite nth_updn_eq by (change (e < rank (transpose r a e)); rewrite rank_transpose; lia). rewrite Esw. reflexivity.
        + rewrite nth_updn_ne by congruence. rewrite nth_shp_transpose by lia. rewrite Hs. apply nth_updn_ne.
          intros E2. apply Hne. rewrite <- (swapn_invol a e i), E2. unfold swapn. rewrite Nat.eqb_refl. reflexivity. }
    rewrite EN. apply transpose_invol; assumption.
Qed.

Lemma crop_one_ok u T i : wf u -> wf T -> agrees_on T u -> 1 <= i <= rank T ->
  dim_last u i = dim_last T i \/ dim_last u i = dim_last T i + 1 ->
  exists u', crop_one u i (dim_last T i) = Ok u' /\ wf u' /\ agrees_on T u' /\ shp u' = updn (rank T - i) (dim_last T i) (shp u).
Proof.
  intros Hu HT Hag Hi Hd. assert (Hr : rank u = rank T) by exact (proj1 Hag). unfold crop_one.
  destruct (Nat.eqb_spec (dim_last u i) (dim_last T i)) as [E|E].
  - exists u. split; [reflexivity|]. split; [exact Hu|]. split; [exact Hag|]. rewrite <- E. unfold dim_last. rewrite Hr, updn_same. reflexivity.
  - destruct Hd as [Hd|Hd]; [contradiction|]. rewrite (proj2 (Nat.eqb_eq _ _) Hd). eexists. split; [reflexivity|].
    unfold slice_dropend. rewrite Hr. assert (El : nth (rank T - i) (shp u) 0 - 1 = nth (rank T - i) (shp T) 0).
    { unfold dim_last in Hd. rewrite Hr in Hd. lia. }
    rewrite El. split; [apply wf_make|]. split; [apply agrees_narrow; [lia|exact Hag]|reflexivity].
Qed.
Lemma crop2_ok axes m t : wf t -> List.length axes = 2 -> axes_ok (rank t) axes -> let nax := map (norm_axis (rank t)) axes in
  crop2 axes (ext_even m nax t) t = Ok t.
Proof.
  intros Hw Hla Hax nax. pose proof (good_axes_ok _ _ Hax) as Hg. fold nax in Hg. pose proof (good_len _ _ Hg) as [_ Hl2].
  assert (Hn : List.length nax = 2) by (unfold nax; rewrite map_length; exact Hla). rewrite Hn in Hl2.
  pose proof (ext_even_agrees m nax t Hw Hg) as Hag. set (r := ext_even m nax t) in *.
  assert (Hr : rank r = rank t) by (exact (proj1 Hag)).
  assert (Hwr : wf r) by apply wf_make. pose proof (good_perm _ _ Hg) as Hp.
  unfold crop2. rewrite !swap_axes_ok by (rewrite ?Hr; exact Hax). rewrite Hr. cbn [rbind]. fold nax. set (p := perm_of nax (rank t)) in *.
  set (T := permute_nat t p). set (u := permute_nat r p).
  assert (HagT : agrees_on T u) by (apply agrees_permute; assumption).
  assert (HT : wf T) by apply wf_make. assert (Hu : wf u) by apply wf_make.
  assert (HrT : rank T = rank t) by (unfold rank, T; cbn; rewrite gather_length; apply is_perm_length; exact Hp).
  assert (ES : exists F n1 n2, shp T = F ++ [n1; n2] /\ shp u = F ++ [even_up n1; even_up n2]).
  { exists (fsz nax (shp t)). destruct nax as [|a1 [|a2 [|]]] eqn:En; try discriminate. exists (nth a1 (shp t) 0), (nth a2 (shp t) 0). split.
    - unfold T, p, perm_of. cbn [permute_nat shp tmake]. unfold gather. rewrite map_app. reflexivity.
    - unfold u, p, perm_of. cbn [permute_nat shp tmake]. unfold gather. rewrite map_app. rewrite <- Hr. fold (gather (front_of [a1; a2] (rank r)) 0 (shp r)).
      change (gather (front_of [a1; a2] (rank r)) 0 (shp r)) with (fsz [a1; a2] (shp r)). f_equal.
      + unfold r, ext_even. apply fsz_along. exact Hg.
      + change (gather [a1; a2] 0 (shp r) = map even_up (gather [a1; a2] 0 (shp t))). unfold r, ext_even. apply gather_along; [exact Hg|reflexivity]. }
  destruct ES as (F & n1 & n2 & ET & EU).
  assert (HlF : rank t = List.length F + 2) by (rewrite <- HrT; unfold rank; rewrite ET, app_length; reflexivity).
  assert (D1 : forall v (a b : nat), shp v = F ++ [a; b] -> @dim_last K v 1 = b).
  { intros v a b E. unfold dim_last, rank. rewrite E, app_length. cbn [List.length]. rewrite app_nth2 by lia. replace (_ - _) with 1 by lia. reflexivity. }
  assert (D2 : forall v (a b : nat), shp v = F ++ [a; b] -> @dim_last K v 2 = a).
  { intros v a b E. unfold dim_last, rank. rewrite E, app_length. cbn [List.length]. rewrite app_nth2 by lia. replace (_ - _) with 0 by lia. reflexivity. }
  assert (U1 : forall x a b : nat, updn (rank T - 1) x (F ++ [a; b]) = F ++ [a; x]).
  { intros x a b. rewrite HrT, HlF. clear. replace (List.length F + 2 - 1) with (List.length F + 1) by lia. induction F as [|f F IH]; [reflexivity|]. cbn. f_equal. exact IH. }
  assert (U2 : forall x a b : nat, updn (rank T - 2) x (F ++ [a; b]) = F ++ [x; b]).
  { intros x a b. rewrite HrT, HlF. clear. replace (List.length F + 2 - 2) with (List.length F + 0) by lia. induction F as [|f F IH]; [reflexivity|]. cbn. f_equal. exact IH. }
  destruct (crop_one_ok u T 1 Hu HT HagT) as (u1 & C1 & W1 & A1 & S1); [lia| |].
  { rewrite (D1 u _ _ EU), (D1 T _ _ ET). apply even_up_cases. }
  rewrite C1. cbn [rbind].
  rewrite EU, U1, (D1 T _ _ ET) in S1.
  destruct (crop_one_ok u1 T 2 W1 HT A1) as (u2 & C2 & W2 & A2 & S2); [lia| |].
  { rewrite (D2 u1 _ _ S1), (D2 T _ _ ET). apply even_up_cases. }
  rewrite C2. cbn [rbind]. rewrite S1, U2, (D2 T _ _ ET) in S2.
  assert (u2 = T) as -> by (apply agrees_same; auto; congruence).
  rewrite undo_swap_axes_ok by (rewrite HrT; exact Hax). rewrite HrT. fold nax. fold p. f_equal. apply permute_inv; assumption.
Qed.

(** ** one analysis step *)
Lemma levels_one m L n : levels_ok m L 1 n <-> admissible m L n.
Proof.
  split.
  - intros H. exact (H 0 (le_n 1)).
  - intros H j Hj. assert (j = 0) as -> by lia. exact H.
Qed.
Lemma levels_all_one m L ns : levels_all m L 1 ns <-> Forall (admissible m L) ns.
Proof. unfold levels_all. rewrite !Forall_forall. split; intros H n Hn; apply levels_one, H, Hn. Qed.
Definition even_bank w (L : nat) : Prop := List.length (dec_lo w) = L /\ List.length (dec_hi w) = L /\ 2 <= L /\ Nat.even L = true.

Lemma dec1_inv w m L axis t ch : even_bank w L -> wf t -> dec1 w (mode_name m) axis t = Ok ch ->
  is_dtype_supported (tdtype t) = true /\ axis_ok (rank t) axis /\ let a := norm_axis (rank t) axis in
  admissible m L (nth a (shp t) 0) /\ ch = [dwt_axes [dec_lo w] m [a] t; dwt_axes [dec_hi w] m [a] t].
Proof.
  intros (H1 & H2 & HL & He) Hw H. unfold dec1 in H. apply rbind_ok in H as (n0 & Hn0 & H). apply rbind_ok in H as (c & Hc & H).
  destruct (wavedec_inv t w m L (Some 1%Z) axis c Hw H1 H2 HL He Hc) as (Hd & Hax & J & HJ & Hok). cbn [lev_of] in HJ. change (Z.to_nat 1) with 1 in HJ. subst J.
  split; [exact Hd|]. split; [exact Hax|]. cbv zeta. split; [apply levels_one; exact Hok|].
  rewrite (wavedec_ok t w m L 1 (Some 1%Z) axis) in Hc by (auto; reflexivity). apply ok_inj in Hc. subst c. cbn in H. injection H as <-. reflexivity.
Qed.
Lemma dec1_ok w m L axis t : even_bank w L -> wf t -> is_dtype_supported (tdtype t) = true -> axis_ok (rank t) axis ->
  let a := norm_axis (rank t) axis in admissible m L (nth a (shp t) 0) ->
  dec1 w (mode_name m) axis t = Ok [dwt_axes [dec_lo w] m [a] t; dwt_axes [dec_hi w] m [a] t].
Proof.
  intros (H1 & H2 & HL & He) Hw Hd Hax a Ha. unfold dec1. rewrite shape_at_ok by exact Hax. cbn [rbind].
  rewrite (wavedec_ok t w m L 1 (Some 1%Z) axis Hw Hd Hax H1 H2 HL He eq_refl (proj2 (levels_one _ _ _) Ha)). reflexivity.
Qed.
Notation fil2 w sep := (filters2 sep (dec_lo w) (dec_hi w)).
Lemma dec2_inv w m L axes sep t ch : even_bank w L -> wf t -> List.length axes = 2 -> dec2 w (mode_name m) axes sep t = Ok ch ->
  is_dtype_supported (tdtype t) = true /\ axes_ok (rank t) axes /\ let nax := map (norm_axis (rank t)) axes in
  Forall (admissible m L) (gather nax 0 (shp t)) /\ ch = map (fun c => dwt_axes (fil2 w sep c) m nax t) ["a"; "h"; "v"; "d"]%char.
Proof.
  intros (H1 & H2 & HL & He) Hw Hla H. unfold dec2 in H. apply rbind_ok in H as (n0 & Hn0 & H). apply swap_axes_inv in Hn0.
  assert (Hn : List.length (map (norm_axis (rank t)) axes) = 2) by (rewrite map_length; exact Hla).
  destruct sep.
  - apply rbind_ok in H as (c & Hc & H). unfold fswavedec2 in Hc.
    destruct (fswavedecn_result t w 2 m L (Some 1%Z) (AxSeq axes) c ltac:(lia) Hw H1 H2 HL He ltac:(discriminate) Hc) as (Hd & axes' & Hh & _ & _ & HJ & ->).
    cbn in Hh. rewrite Hla in Hh. cbn in Hh. injection Hh as <-. split; [exact Hd|]. split; [exact Hn0|]. cbv zeta in *. split; [apply levels_all_one; exact HJ|].
    set (nax := map (norm_axis (rank t)) axes) in *. destruct nax as [|a1 [|a2 [|]]]; try discriminate. cbn in H. injection H as <-. reflexivity.
  - apply rbind_ok in H as (c & Hc & H).
    destruct (wavedec2_result t w m L (Some 1%Z) (AxSeq axes) c Hw H1 H2 HL He Hc) as (Hd & axes' & Hh & _ & _ & HJ & ->).
    cbn in Hh. rewrite Hla in Hh. cbn in Hh. injection Hh as <-. split; [exact Hd|]. split; [exact Hn0|]. cbv zeta in *. split; [apply levels_all_one; exact HJ|].
    set (nax := map (norm_axis (rank t)) axes) in *. destruct nax as [|a1 [|a2 [|]]]; try discriminate. cbn in H. injection H as <-. reflexivity.
Qed.
Lemma dec2_ok w m L axes sep t : even_bank w L -> wf t -> is_dtype_supported (tdtype t) = true -> List.length axes = 2 -> axes_ok (rank t) axes ->
  let nax := map (norm_axis (rank t)) axes in Forall (admissible m L) (gather nax 0 (shp t)) ->
  dec2 w (mode_name m) axes sep t = Ok (map (fun c => dwt_axes (fil2 w sep c) m nax t) ["a"; "h"; "v"; "d"]%char).
Proof.
  intros (H1 & H2 & HL & He) Hw Hd Hla Hax nax Ha. unfold dec2. rewrite swap_axes_ok by exact Hax. cbn [rbind].
  assert (Hh : hint_axes (AxSeq axes) 2 = Some axes) by (cbn; rewrite Hla; reflexivity).
  assert (Hn : List.length nax = 2) by (unfold nax; rewrite map_length; exact Hla).
  destruct sep.
  - pose proof (fswavedecn_cases t w 2 m L (Some 1%Z) (AxSeq axes) axes ltac:(lia) Hw Hd Hh Hla Hax H1 H2 HL He) as Hc. cbv zeta in Hc. specialize (Hc ltac:(discriminate)).
    unfold fswavedec2. destruct (fswavedecn t w 2 _ _ _) as [c|e].
    + destruct Hc as [_ ->]. cbn [rbind]. fold nax. change (num_levels _ _ _) with 1. destruct nax as [|a1 [|a2 [|]]]; try discriminate. reflexivity.
    + exfalso. apply (proj1 Hc). apply levels_all_one. exact Ha.
  - pose proof (wavedec2_cases t w m L (Some 1%Z) (AxSeq axes) axes Hw Hd Hh Hla Hax H1 H2 HL He) as Hc. cbv zeta in Hc.
    destruct (wavedec2 t w _ _ _) as [c|e].
    + destruct Hc as [_ ->]. cbn [rbind]. fold nax. change (num_levels _ _ _) with 1. destruct nax as [|a1 [|a2 [|]]]; try discriminate. reflexivity.
    + exfalso. apply (proj1 Hc). apply levels_all_one. exact Ha.
Qed.

(** ** one synthesis step *)
Lemma rec1_pr w m L axis t ch : cancel2 K -> pr_bank (dec_lo w) (dec_hi w) (rec_lo w) (rec_hi w) L -> wf t ->
  dec1 w (mode_name m) axis t = Ok ch -> rec1 w axis ch = Ok (ext_even m [norm_axis (rank t) axis] t).
Proof.
  intros Hc Hpr Hw H. pose proof (pr_len _ _ _ _ _ Hpr) as (H1 & H2 & H3 & H4).
  destruct (dec1_inv w m L axis t ch (conj H1 (conj H2 (conj (pr_two _ _ _ _ _ Hpr) (pr_even _ _ _ _ _ Hpr)))) Hw H) as (Hd & Hax & Ha & ->).
  unfold rec1. rewrite shape_at_ok by (unfold dwt_axes; rewrite rank_along; exact Hax). cbn [rbind].
  pose proof (waverec_wavedec_spec w m L 1 axis t (AxInt axis) Hc Hpr Hw Hd Hax eq_refl) as HR. cbv zeta in HR.
  apply HR. apply levels_one. exact Ha.
Qed.
Lemma rec2_pr w m L axes sep t ch : cancel2 K -> pr_bank (dec_lo w) (dec_hi w) (rec_lo w) (rec_hi w) L -> wf t -> List.length axes = 2 ->
  dec2 w (mode_name m) axes sep t = Ok ch -> rec2 w axes sep ch = Ok (ext_even m (map (norm_axis (rank t)) axes) t).
Proof.
  intros Hc Hpr Hw Hla H. pose proof (pr_len _ _ _ _ _ Hpr) as (H1 & H2 & H3 & H4).
  destruct (dec2_inv w m L axes sep t ch (conj H1 (conj H2 (conj (pr_two _ _ _ _ _ Hpr) (pr_even _ _ _ _ _ Hpr)))) Hw Hla H) as (Hd & Hax & Ha & ->).
  cbv zeta in *. set (nax := map (norm_axis (rank t)) axes) in *.
  assert (Hh : hint_axes (AxSeq axes) 2 = Some axes) by (cbn; rewrite Hla; reflexivity).
  assert (Hn : List.length nax = 2) by (unfold nax; rewrite map_length; exact Hla).
  cbn [map rec2]. rewrite swap_axes_ok by (unfold dwt_axes; rewrite rank_along; exact Hax). cbn [rbind].
  assert (HR : waverec2 (wavedec2_spec (dec_lo w) (dec_hi w) m nax 1 t) w (AxSeq axes) = Ok (ext_even m nax t)).
  { apply (waverec2_wavedec2_spec w m L 1 (AxSeq axes) axes t); auto. apply levels_all_one. exact Ha. }
  set (A := dwt_axes [dec_lo w; dec_lo w] m nax t) in *. set (H' := dwt_axes [dec_hi w; dec_lo w] m nax t). set (V' := dwt_axes [dec_lo w; dec_hi w] m nax t). set (D' := dwt_axes [dec_hi w; dec_hi w] m nax t).
  assert (EA : approx (dec_lo w) m nax 1 t = A) by (unfold approx, A; rewrite Hn; reflexivity).
  assert (ES : wavedec2_spec (dec_lo w) (dec_hi w) m nax 1 t = mkPC false [PT A; PTup [H'; V'; D']]).
  { unfold wavedec2_spec. rewrite EA. reflexivity. }
  destruct sep.
  - change (fil2 w true "a") with [dec_lo w; dec_lo w]. change (fil2 w true "h") with [dec_lo w; dec_hi w].
    change (fil2 w true "v") with [dec_hi w; dec_lo w]. change (fil2 w true "d") with [dec_hi w; dec_hi w]. fold A H' V' D'.
    rewrite <- HR, ES.
    assert (HrA : rank A = rank t) by (unfold A, dwt_axes; apply rank_along).
    destruct (C18_synthesis_2d A [[H'; V'; D']] [[("ad", V'); ("da", H'); ("dd", D')]%string] w L (AxSeq axes) axes) as (y & Y1 & Y2); auto.
    + apply wf_make.
    + rewrite HrA. exact Hax.
    + apply (pr_two _ _ _ _ _ Hpr).
    + rewrite HrA. fold nax. rewrite <- EA. apply (spec_fits 2 (dec_lo w) (dec_hi w) m L nax 1 t); auto; try lia.
      * apply good_axes_ok; exact Hax.
      * apply (pr_two _ _ _ _ _ Hpr).
      * apply (pr_even _ _ _ _ _ Hpr).
      * apply levels_all_one. exact Ha.
    + constructor; [|constructor]. split; [reflexivity|]. intros k. cbn. tauto.
    + constructor; [|constructor]. cbn. repeat constructor; cbn; intuition discriminate.
    + cbn [map levels2] in *. rewrite Y1. exact Y2.
  - change (fil2 w false "a") with [dec_lo w; dec_lo w]. change (fil2 w false "h") with [dec_hi w; dec_lo w].
    change (fil2 w false "v") with [dec_lo w; dec_hi w]. change (fil2 w false "d") with [dec_hi w; dec_hi w]. fold A H' V' D'. rewrite <- ES. exact HR.
Qed.

(** ** nodes *)
Section Nodes.
Variables (f : tensor K -> result (list (tensor K))) (letters : list ascii) (fil : ascii -> list (list K)) (m : mode) (L : nat) (NAX : nat -> list nat).
Hypothesis letters_nodup : NoDup letters.
Hypothesis f_inv : forall t ch, wf t -> f t = Ok ch -> ch = map (fun c => dwt_axes (fil c) m (NAX (rank t)) t) letters.
Lemma child_map {A} (F : ascii -> A) ls c : In c ls -> child ls (map F ls) c = Some (F c).
Proof.
  induction ls as [|l ls IH]; [intros []|]. intros Hc. cbn. destruct (Ascii.eqb_spec l c) as [->|Hne]; [reflexivity|].
  destruct Hc as [E|Hc]; [congruence|]. apply IH. exact Hc.
Qed.
Lemma packet_node_snoc nax p c x : packet_node fil m nax (p ++ [c]) x = dwt_axes (fil c) m nax (packet_node fil m nax p x).
Proof. unfold packet_node. rewrite fold_left_app. reflexivity. Qed.
Lemma packet_node_facts nax p x : wf x -> wf (packet_node fil m nax p x) /\ rank (packet_node fil m nax p x) = rank x /\ ttag (packet_node fil m nax p x) = ttag x.
Proof.
  induction p as [|c p IH] using rev_ind; intros Hw; [auto|]. rewrite packet_node_snoc. destruct (IH Hw) as (H1 & H2 & H3).
  split; [apply wf_make|]. split; [unfold dwt_axes; rewrite rank_along; exact H2|exact H3].
Qed.
Lemma node_snoc' x p c : node_at f letters x (p ++ [c]) =
  if memc c letters then
    let* v := node_at f letters x p in let* ch := f v in match child letters ch c with Some u => Ok u | None => Raise KeyError end
  else Raise ValueError.
Proof. unfold node_at. rewrite rev_app_distr. reflexivity. Qed.
Lemma node_formula x p v : wf x -> node_at f letters x p = Ok v -> v = packet_node fil m (NAX (rank x)) p x.
Proof.
  intros Hw. revert v; induction p as [|c p IH] using rev_ind; intros v H; [injection H as <-; reflexivity|].
  rewrite node_snoc' in H. destruct (memc c letters) eqn:Ec; [|discriminate]. apply memc_In in Ec.
  destruct (node_at f letters x p) as [u|]; [|discriminate]. specialize (IH u eq_refl). cbn in H.
  destruct (packet_node_facts (NAX (rank x)) p x Hw) as (H1 & H2 & _). rewrite <- IH in H1, H2.
  destruct (f u) as [ch|] eqn:Ef; [|discriminate]. cbn in H. rewrite (f_inv u ch H1 Ef), child_map in H by exact Ec. injection H as <-.
  rewrite packet_node_snoc, <- IH, H2. reflexivity.
Qed.
Hypothesis fil_len : forall c r, List.length (fil c) = List.length (NAX r).
Hypothesis fil_L : forall c, Forall (fun g => List.length g = L) (fil c).
Lemma packet_node_sizes p x : wf x -> good_axes (rank x) (NAX (rank x)) ->
  gather (NAX (rank x)) 0 (shp (packet_node fil m (NAX (rank x)) p x)) = map (len_after L (List.length p)) (gather (NAX (rank x)) 0 (shp x)).
Proof.
  intros Hw Hg. induction p as [|c p IH] using rev_ind; [symmetry; apply map_id|].
  rewrite packet_node_snoc. destruct (packet_node_facts (NAX (rank x)) p x Hw) as (H1 & H2 & _).
  rewrite (dwt_axes_sizes _ m L); [|rewrite H2; exact Hg|apply fil_len|apply fil_L]. rewrite IH, map_map. apply map_ext. intros n.
  rewrite app_length. cbn [List.length]. rewrite Nat.add_1_r. symmetry. apply len_after_S.
Qed.
Variable axok : nat -> Prop.
Hypothesis f_ok : forall t, wf t -> is_dtype_supported (tdtype t) = true -> axok (rank t) ->
  Forall (admissible m L) (gather (NAX (rank t)) 0 (shp t)) -> exists ch, f t = Ok ch.
Lemma node_exists x p J : axok (rank x) -> wf x -> is_dtype_supported (tdtype x) = true -> good_axes (rank x) (NAX (rank x)) ->
  levels_all m L J (gather (NAX (rank x)) 0 (shp x)) -> word letters p -> List.length p <= J ->
  node_at f letters x p = Ok (packet_node fil m (NAX (rank x)) p x).
Proof.
  intros Hao Hw Hd Hg Hlev. induction p as [|c p IH] using rev_ind; intros Hwd Hl; [reflexivity|].
  apply Forall_app in Hwd as [Hwp Hwc]. apply Forall_inv in Hwc. rewrite app_length in Hl. cbn in Hl.
  rewrite node_snoc', (proj2 (memc_In _ _) Hwc), (IH Hwp ltac:(lia)). cbn [rbind].
  destruct (packet_node_facts (NAX (rank x)) p x Hw) as (H1 & H2 & H3).
  destruct (f_ok (packet_node fil m (NAX (rank x)) p x) H1) as [ch Hch]; auto.
  - unfold tdtype in *. rewrite H3. exact Hd.
  - rewrite H2. exact Hao.
  - rewrite H2, packet_node_sizes by assumption. apply Forall_map. unfold levels_all in Hlev. eapply Forall_impl; [|exact Hlev].
    intros n Hn. apply Hn. lia.
  - rewrite Hch. cbn [rbind]. rewrite (f_inv _ _ H1 Hch), child_map by exact Hwc. rewrite packet_node_snoc, H2. reflexivity.
Qed.
End Nodes.
Lemma node_foreign (f : tensor K -> result (list (tensor K))) letters x (p : key) : ~ word letters p -> node_at f letters x p = Raise ValueError.
Proof.
  induction p as [|c p IH] using rev_ind; intros H; [exfalso; apply H; constructor|].
  rewrite node_snoc'. destruct (memc c letters) eqn:Ec; [|reflexivity]. apply memc_In in Ec.
  rewrite IH; [reflexivity|]. intros Hp. apply H. apply Forall_app. split; [exact Hp|]. constructor; [exact Ec|constructor].
Qed.
End PC.
