(** C58: the nodes of a packet tree along the approximation branch are the coefficients of the ordinary transform. *)
From Coq Require Import List Arith ZArith Lia Bool String Ascii.
From Verif Require Import Base Sums Tensor TensorFacts Util Perm Plumb Accept Spec Conv1 PadFacts CoreFacts Analysis AnalysisInv PRKernel Synthesis Filters Wave1 Wave1Inv Rec1 Rec1Inv Lin Examples Props1 Conv2 Conv3 Spec2 WaveN RecN Props2 Tags Sep SpecSep SepFacts PropsSep Packets SpecPk PacketFacts Orders PacketConv PropsPk Unified.
Import ListNotations.

Section C58.
Context {K : CRing}.
Implicit Types x y t : tensor K.
Implicit Types w : wavelet K.

Definition all_a (j : nat) : list ascii := repeat "a"%char j.

Lemma packet_node_a (fil : ascii -> list (list K)) lo m nax j x : fil "a"%char = repeat lo (List.length nax) ->
  packet_node fil m nax (all_a j) x = approx lo m nax j x.
Proof.
  intros Hf. unfold packet_node, all_a. revert x. induction j as [|j IH]; intros x; [reflexivity|]. cbn [repeat fold_left]. rewrite IH, Hf, approx_S'. reflexivity.
Qed.
Lemma packet_node_ac (fil : ascii -> list (list K)) lo m nax j c x : fil "a"%char = repeat lo (List.length nax) -> 1 <= j ->
  packet_node fil m nax (all_a (j - 1) ++ [c]) x = detail lo (fil c) m nax j x.
Proof.
  intros Hf Hj. unfold packet_node. rewrite fold_left_app. fold (packet_node fil m nax (all_a (j - 1)) x). rewrite (packet_node_a fil lo) by exact Hf. reflexivity.
Qed.
Lemma nth_rev_seq J j {A} (f : nat -> A) : 1 <= j <= J -> nth_error (map f (rev (seq 1 J))) (J - j) = Some (f j).
Proof.
  intros Hj. apply map_nth_error. rewrite (nth_error_nth' _ 0) by (rewrite rev_length, seq_length; lia). f_equal.
  rewrite rev_nth by (rewrite seq_length; lia). rewrite seq_length, seq_nth by lia. lia.
Qed.

Theorem C58_packet_wavedec_1d w m L axis s0 x maxlevel s1 M h l A D : even_bank w L -> wf x ->
  pk_transform (packet1 w (mode_name m) axis) s0 x maxlevel = (s1, Ok tt) -> p_max s1 = Some M -> Forall read_op h ->
  (0 <= l <= M)%Z ->
  wavedec x w (Some (mode_name m)) (Some l) axis = Ok (mkPC true (PT A :: D)) ->
  let read k := snd (pk_get (packet1 w (mode_name m) axis) (pk_run _ s1 h) k) in
  read (all_a (Z.to_nat l)) = Ok A /\
  forall j, 1 <= j <= Z.to_nat l ->
    exists d, nth_error D (Z.to_nat l - j) = Some (PT d) /\ read (all_a (j - 1) ++ ["d"%char]) = Ok d.
Proof.
  intros Hb Hw Ht Hm Hh Hl Hdec read. pose proof Hb as (H1 & H2 & HL & He).
  destruct (wavedec_inv x w m L (Some l) axis _ Hw H1 H2 HL He Hdec) as (Hd & Hax & J & Hlev & Hok). cbn [lev_of] in Hlev.
  pose proof (wavedec_ok x w m L J (Some l) axis Hw Hd Hax H1 H2 HL He Hlev Hok) as E. rewrite Hdec in E. apply ok_inj in E.
  unfold wavedec_spec in E. cbn [map] in E. injection E as EA ED. rewrite map_map in ED. rewrite <- Hlev in *.
  set (a := norm_axis (rank x) axis) in *.
  assert (Hfa : filters1 (dec_lo w) (dec_hi w) "a"%char = repeat (dec_lo w) (List.length [a])) by reflexivity.
  assert (G : forall k, word ["a"; "d"]%char k -> List.length k <= J -> read k = Ok (packet_node (filters1 (dec_lo w) (dec_hi w)) m [a] k x)).
  { intros k Hk Hkl. unfold read. rewrite (C26_packet_reads_1d w (mode_name m) axis s0 x maxlevel s1 M h k Ht Hm Hh).
    unfold packet_read. destruct k as [|c k]; [reflexivity|]. rewrite (proj2 (Z.leb_le _ _)) by lia.
    apply (node_exists (dec1 w (mode_name m) axis) ["a"; "d"]%char (filters1 (dec_lo w) (dec_hi w)) m L (fun r => [norm_axis r axis])) with (J := J) (axok := fun r => axis_ok r axis); auto.
    - intros t ch Ht' E'. destruct (dec1_inv w m L axis t ch Hb Ht' E') as (_ & _ & _ & ->). reflexivity.
    - intros c'. unfold filters1. destruct (Ascii.eqb c' "d"); repeat constructor; assumption.
    - intros t Ht' Hdt Hao Ha. eexists. apply (dec1_ok w m L axis t Hb Ht' Hdt Hao). apply Forall_inv in Ha. exact Ha.
    - apply good_axes1. apply norm_axis_lt. exact Hax.
    - repeat constructor. exact Hok. }
  assert (Ga : forall j, word ["a"; "d"]%char (all_a j)).
  { intros j. apply Forall_forall. intros c Hc. apply repeat_spec in Hc. subst c. cbn. auto. }
  split.
  - rewrite G; [|apply Ga|unfold all_a; rewrite repeat_length; lia]. rewrite (packet_node_a _ (dec_lo w)) by exact Hfa. rewrite EA. reflexivity.
  - intros j Hj. eexists. split; [rewrite ED; apply (nth_rev_seq J j (fun j => PT (detail (dec_lo w) [dec_hi w] m [a] j x))); exact Hj|].
    rewrite G.
    + rewrite (packet_node_ac _ (dec_lo w)) by (try exact Hfa; lia). reflexivity.
    + apply Forall_app. split; [apply Ga|]. constructor; [cbn; auto|constructor].
    + rewrite app_length. unfold all_a. rewrite repeat_length. cbn. lia.
Qed.

(** 2d: with separable=False the nodes are the tensors of wavedec2 (h = horizontal, v = vertical, d = diagonal), with separable=True those of fswavedec2
    (h is stored under the key "ad", v under "da") *)
Theorem C58_packet_wavedec_2d w m L axes separable s0 x maxlevel s1 M h l A D : even_bank w L -> wf x -> List.length axes = 2 ->
  pk_transform (packet2 w (mode_name m) axes separable) s0 x maxlevel = (s1, Ok tt) -> p_max s1 = Some M -> Forall read_op h ->
  (0 <= l <= M)%Z ->
  (if separable then fswavedec2 x w (Some (mode_name m)) (Some l) (AxSeq axes) else wavedec2 x w (Some (mode_name m)) (Some l) (AxSeq axes)) = Ok (mkPC false (PT A :: D)) ->
  let read k := snd (pk_get (packet2 w (mode_name m) axes separable) (pk_run _ s1 h) k) in
  read (all_a (Z.to_nat l)) = Ok A /\
  forall j, 1 <= j <= Z.to_nat l ->
    exists H V Dg, read (all_a (j - 1) ++ ["h"%char]) = Ok H /\ read (all_a (j - 1) ++ ["v"%char]) = Ok V /\ read (all_a (j - 1) ++ ["d"%char]) = Ok Dg /\
      (if separable then exists d, nth_error D (Z.to_nat l - j) = Some (PDict d) /\ dict_get d "ad" = Some H /\ dict_get d "da" = Some V /\ dict_get d "dd" = Some Dg
       else nth_error D (Z.to_nat l - j) = Some (PTup [H; V; Dg])).
Proof.
  intros Hb Hw Hla Ht Hm Hh Hl Hdec read. pose proof Hb as (H1 & H2 & HL & He).
  set (T := if separable then Tfswavedec2 (AxSeq axes) else Twavedec2 (AxSeq axes)).
  assert (HT : analyse T x w (Some (mode_name m)) (Some l) = Ok (mkPC false (PT A :: D))) by (unfold T; destruct separable; exact Hdec).
  edestruct (analyse_inv T x w m L (Some l)) with (8 := HT) as (Hd & axes' & Hh' & _ & Hax & HJ); try eassumption.
  { unfold T. destruct separable; discriminate. } { discriminate. }
  assert (Hh2 : hint_axes (thint T) (tdim T) = Some axes) by (unfold T; destruct separable; cbn; rewrite Hla; reflexivity).
  rewrite Hh2 in Hh'. injection Hh' as <-. cbv zeta in HJ. destruct HJ as (_ & _ & Hlev & Hc). cbn [num_levels] in Hlev, Hc.
  set (nax := map (norm_axis (rank x)) axes) in *. set (J := Z.to_nat l) in *. unfold tspec in Hc. injection Hc as _ EA ED.
  pose proof (good_axes_ok _ _ Hax) as Hg. fold nax in Hg.
  assert (Hfa : filters2 separable (dec_lo w) (dec_hi w) "a"%char = repeat (dec_lo w) (List.length nax)).
  { unfold nax. rewrite map_length, Hla. destruct separable; reflexivity. }
  assert (G : forall k, word ["a"; "h"; "v"; "d"]%char k -> List.length k <= J -> read k = Ok (packet_node (filters2 separable (dec_lo w) (dec_hi w)) m nax k x)).
  { intros k Hk Hkl. unfold read. rewrite (C26_packet_reads_2d w (mode_name m) axes separable s0 x maxlevel s1 M h k Ht Hm Hh).
    unfold packet_read. destruct k as [|c k]; [reflexivity|]. rewrite (proj2 (Z.leb_le _ _)) by lia.
    apply (node_exists (dec2 w (mode_name m) axes separable) ["a"; "h"; "v"; "d"]%char (filters2 separable (dec_lo w) (dec_hi w)) m L (fun r => map (norm_axis r) axes)) with (J := J) (axok := fun r => axes_ok r axes); auto.
    - intros t ch Ht' E. destruct (dec2_inv w m L axes separable t ch Hb Ht' Hla E) as (_ & _ & _ & ->). reflexivity.
    - intros c' r. rewrite map_length, Hla. unfold filters2. destruct (Ascii.eqb c' "d"); [reflexivity|]. destruct (Ascii.eqb c' _); [reflexivity|]. destruct (Ascii.eqb c' _); reflexivity.
    - intros c'. unfold filters2. destruct (Ascii.eqb c' "d"); [repeat constructor; assumption|]. destruct (Ascii.eqb c' _); [repeat constructor; assumption|]. destruct (Ascii.eqb c' _); repeat constructor; assumption.
    - intros t Ht' Hdt Hao Ha. eexists. apply (dec2_ok w m L axes separable t Hb Ht' Hdt Hla Hao Ha). }
  assert (Ga : forall j, word ["a"; "h"; "v"; "d"]%char (all_a j)).
  { intros j. apply Forall_forall. intros c Hc. apply repeat_spec in Hc. subst c. cbn. auto. }
  split.
  - rewrite G; [|apply Ga|unfold all_a; rewrite repeat_length; lia]. rewrite (packet_node_a _ (dec_lo w)) by exact Hfa. rewrite EA. reflexivity.
  - intros j Hj. pose proof (nth_rev_seq J j (fun j => tdetails T (dec_lo w) (dec_hi w) m nax j x) Hj) as Hn. rewrite <- ED in Hn.
    assert (Gc : forall c, In c ["h"; "v"; "d"]%char -> read (all_a (j - 1) ++ [c]) = Ok (detail (dec_lo w) (filters2 separable (dec_lo w) (dec_hi w) c) m nax j x)).
    { intros c Hc. rewrite G.
      - rewrite (packet_node_ac _ (dec_lo w)) by (try exact Hfa; lia). reflexivity.
      - apply Forall_app. split; [apply Ga|]. constructor; [cbn in *; tauto|constructor].
      - rewrite app_length. unfold all_a. rewrite repeat_length. cbn. lia. }
    do 3 eexists. split; [apply Gc; cbn; auto|]. split; [apply Gc; cbn; auto|]. split; [apply Gc; cbn; auto|].
    unfold T in Hn. destruct separable; cbn [tdetails] in Hn; [|exact Hn].
    eexists. split; [exact Hn|]. unfold detailsN, nax. rewrite map_length, Hla. repeat split.
Qed.
End C58.

(** instance: two levels of the length-4 integer bank on 11 samples, some nodes read before *)
Theorem ex_C58 :
  let B := packet1 exW4 (mode_name Msymmetric) (-1) in
  let s1 := fst (pk_transform B (pk_new B tt) (exT [2; 11]) (Some 2%Z)) in
  let s := pk_run B s1 [ORead ["d"; "a"]%char; OInit [["a"; "d"]%char]] in
  match wavedec (exT [2; 11]) exW4 (Some (mode_name Msymmetric)) (Some 2%Z) (-1) with
  | Ok (mkPC true [PT A; PT D2; PT D1]) =>
      snd (pk_get B s ["a"; "a"]%char) = Ok A /\ snd (pk_get B s ["a"; "d"]%char) = Ok D2 /\ snd (pk_get B s ["d"]%char) = Ok D1
  | _ => False end.
Proof. vm_compute. repeat split. Qed.
Theorem ex_C58_2d :
  let B := packet2 exW2 (mode_name Mreflect) [(-2)%Z; (-1)%Z] true in
  let s1 := fst (pk_transform B (pk_new B tt) (exT [6; 5]) (Some 2%Z)) in
  match fswavedec2 (exT [6; 5]) exW2 (Some (mode_name Mreflect)) (Some 2%Z) (AxSeq [(-2)%Z; (-1)%Z]) with
  | Ok (mkPC false [PT A; PDict d2; PDict d1]) =>
      snd (pk_get B s1 ["a"; "a"]%char) = Ok A /\ Some (snd (pk_get B s1 ["a"; "h"]%char)) = option_map Ok (dict_get d2 "ad") /\
      Some (snd (pk_get B s1 ["v"]%char)) = option_map Ok (dict_get d1 "da")
  | _ => False end.
Proof. vm_compute. repeat split. Qed.
