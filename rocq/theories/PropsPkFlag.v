(** C44: the flag [separable] of WaveletPacket2D does nothing but exchange the letters h and v: the node of a path in
    one variant is the node of the path with h and v exchanged in the other. *)
From Coq Require Import List Arith ZArith Lia Bool Ascii String.
From Verif Require Import Base Sums Tensor TensorFacts Util Perm Plumb Accept Spec Conv1 Analysis Wave1 Examples Props1 Conv2 Spec2 WaveN Packets SpecPk PacketFacts PacketConv PropsSwt PropsPk.
Import ListNotations.

Section Flag.
Context {K : CRing}.
Definition swap_hv (c : ascii) : ascii := if Ascii.eqb c "h" then "v"%char else if Ascii.eqb c "v" then "h"%char else c.
Lemma filters2_swap (lo hi : list K) c : filters2 true lo hi c = filters2 false lo hi (swap_hv c).
Proof.
  unfold filters2, swap_hv. destruct (Ascii.eqb_spec c "h") as [->|Hh]; [reflexivity|]. destruct (Ascii.eqb_spec c "v") as [->|Hv]; [reflexivity|].
  destruct (Ascii.eqb c "d"); [reflexivity|].
  destruct (Ascii.eqb_spec c "h"); [congruence|]. destruct (Ascii.eqb_spec c "v"); [congruence|]. reflexivity.
Qed.
Lemma node_swap (lo hi : list K) m nax : forall p x, packet_node (filters2 true lo hi) m nax p x = packet_node (filters2 false lo hi) m nax (map swap_hv p) x.
Proof. unfold packet_node. induction p as [|c p IH]; intros x; [reflexivity|]. cbn [map fold_left]. rewrite filters2_swap. apply IH. Qed.
(** any padding mode, even filter length, size, axes, pair of maximal levels and histories of reads *)
Theorem C44_packet_flag (w : wavelet K) (m : mode) L axes (x : tensor K) s0 s0' l l' s1 s1' n n' h h' k v v' :
  let B := packet2 w (mode_name m) axes true in let B' := packet2 w (mode_name m) axes false in
  even_bank w L -> wf x -> List.length axes = 2 ->
  pk_transform B s0 x l = (s1, Ok tt) -> p_max s1 = Some n -> pk_transform B' s0' x l' = (s1', Ok tt) -> p_max s1' = Some n' ->
  Forall read_op h -> Forall read_op h' ->
  snd (pk_get B (pk_run B s1 h) k) = Ok v -> snd (pk_get B' (pk_run B' s1' h') (map swap_hv k)) = Ok v' -> v = v'.
Proof.
  intros B B' Hb Hw Hla Ht Hm Ht' Hm' Hh Hh' H H'. unfold B, B' in *.
  rewrite (C26_packet_reads_2d w _ axes true s0 x l s1 n h k Ht Hm Hh) in H.
  rewrite (C26_packet_reads_2d w _ axes false s0' x l' s1' n' h' (map swap_hv k) Ht' Hm' Hh') in H'.
  destruct k as [|c k]; [cbn [map packet_read] in H, H'; congruence|]. unfold packet_read in H, H'. cbn [map] in H'.
  destruct (_ <=? n)%Z in H; [|discriminate]. destruct (_ <=? n')%Z in H'; [|discriminate].
  apply (C26_node_formula_2d w m L axes true x (c :: k) v Hb Hw Hla) in H.
  change (swap_hv c :: map swap_hv k) with (map swap_hv (c :: k)) in H'.
  apply (C26_node_formula_2d w m L axes false x (map swap_hv (c :: k)) v' Hb Hw Hla) in H'. rewrite H, H'. apply node_swap.
Qed.
(** both reads succeed, with the default maximal level, for every path of the tree: each object returns for k what the
    other returns for k with h and v exchanged *)
Theorem C44_packet_flag_default (w : wavelet K) (m : mode) L axes (x : tensor K) s0 s0' h h' : even_bank w L -> wf x -> float_tensor x -> List.length axes = 2 -> axes_ok (rank x) axes ->
  let nax := map (norm_axis (rank x)) axes in Forall (fun n => 1 <= n) (gather nax 0 (shp x)) ->
  let B := packet2 w (mode_name m) axes true in let B' := packet2 w (mode_name m) axes false in
  Forall read_op h -> Forall read_op h' ->
  exists s1 s1', pk_transform B s0 x None = (s1, Ok tt) /\ pk_transform B' s0' x None = (s1', Ok tt) /\
    forall k, word ["a"; "h"; "v"; "d"]%char k -> List.length k <= default_level L (Nat.min (nth (nth 0 nax 0) (shp x) 0) (nth (nth 1 nax 0) (shp x) 0)) ->
    exists v, snd (pk_get B (pk_run B s1 h) k) = Ok v /\ snd (pk_get B' (pk_run B' s1' h') (map swap_hv k)) = Ok v.
Proof.
  intros Hb Hw Hf Hla Hax nax Hn B B' Hh Hh'.
  assert (SW : forall k, word ["a"; "h"; "v"; "d"]%char k -> word ["a"; "h"; "v"; "d"]%char (map swap_hv k)).
  { intros k Hk. apply Forall_map. eapply Forall_impl; [|exact Hk]. intros c Hc. cbn in Hc. destruct Hc as [<-|[<-|[<-|[<-|[]]]]]; cbn; auto. }
  destruct (C26_default_level_2d w m L axes true s0 x h [] Hb Hw Hf Hla Hax Hn) as (s1 & J & HJ & Ht & Hm & _).
  destruct (C26_default_level_2d w m L axes false s0' x h' [] Hb Hw Hf Hla Hax Hn) as (s1' & J' & HJ' & Ht' & Hm' & _).
  exists s1, s1'. split; [exact Ht|]. split; [exact Ht'|]. intros k Hk Hl.
  destruct (C26_default_level_2d w m L axes true s0 x h k Hb Hw Hf Hla Hax Hn) as (t1 & N & HN & Et & _ & R).
  destruct (C26_default_level_2d w m L axes false s0' x h' (map swap_hv k) Hb Hw Hf Hla Hax Hn) as (t1' & N' & HN' & Et' & _ & R').
  assert (E1 : t1 = s1) by congruence. assert (E2 : t1' = s1') by congruence. subst t1 t1'. fold nax in HN, HN'.
  eexists. split; [apply R; [exact Hh|exact Hk|rewrite HN; exact Hl]|].
  unfold B'. rewrite R' by (first [exact Hh'|apply SW; exact Hk|rewrite map_length, HN'; exact Hl]). f_equal. symmetry. apply node_swap.
Qed.
End Flag.
(** hypotheses met: a batch of 5 x 9 integer images, two levels; the node ha of one object is the node va of the other, and
    differs from its node ha *)
Theorem ex_C44_packet_flag : let B sep := packet2 exW4 "symmetric"%string [-2; -1]%Z sep in let x := exT [2; 5; 9] in
  let node sep k := snd (pk_get (B sep) (fst (pk_transform (B sep) (pk_new (B sep) tt) x (Some 2%Z))) k) in
  (exists v, node true ["h"; "a"]%char = Ok v /\ node false ["v"; "a"]%char = Ok v) /\ node true ["h"; "a"]%char <> node false ["h"; "a"]%char /\
  even_bank exW4 4 /\ wf x /\ float_tensor x.
Proof.
  cbv zeta. split; [eexists; split; vm_compute; reflexivity|]. split; [vm_compute; discriminate|]. split; [repeat split; lia|]. split; [reflexivity|]. vm_compute. auto.
Qed.
