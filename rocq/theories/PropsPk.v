(** Property theorems for the packet objects with padding modes (C26-C30). *)
From Coq Require Import List Arith ZArith Lia Bool String Ascii.
From Verif Require Import Base Sums Tensor TensorFacts Util Perm Plumb Accept Spec Conv1 Conv2 PadFacts CoreFacts Analysis Filters Wave1 Wave1Inv Rec1 Lin Spec2 WaveN RecN Sep SpecSep SepFacts Examples Tags Props1 Props2 PropsSep Packets SpecPk PacketFacts Orders PacketConv.
Import ListNotations.

Section PP.
Context {K : CRing}.
Implicit Types t u x : tensor K.
Implicit Types w : wavelet K.

Lemma nodup1 : NoDup ["a"; "d"]%char. Proof. repeat constructor; cbn; intuition discriminate. Qed.
Lemma nodup2 : NoDup ["a"; "h"; "v"; "d"]%char. Proof. repeat constructor; cbn; intuition discriminate. Qed.

(** a packet object on which transform was called successfully *)
Lemma transform_holds (B : backend K) (Inv : be_st B -> Prop) f s0 x ml s1 m : Inv (p_be s0) -> pk_transform B s0 x ml = (s1, Ok tt) -> p_max s1 = Some m -> holds B Inv f x m s1.
Proof.
  intros Hi H Hm. assert (E : s1 = fst (pk_transform B s0 x (Some m))).
  { unfold pk_transform in H. destruct ml as [z|].
    - injection H as <-. cbn in Hm. injection Hm as <-. reflexivity.
    - destruct (be_maxlevel B x); [|discriminate]. injection H as <-. cbn in Hm. injection Hm as <-. reflexivity. }
  rewrite E. apply holds_transform. exact Hi.
Qed.

(** ** C26: reads are history independent.  [dec1]/[dec2] are one-level calls of wavedec / wavedec2 / fswavedec2 *)
Theorem C26_packet_reads_1d w mode axis s0 x maxlevel s1 m h k :
  pk_transform (packet1 w mode axis) s0 x maxlevel = (s1, Ok tt) -> p_max s1 = Some m ->
  Forall read_op h ->
  snd (pk_get (packet1 w mode axis) (pk_run (packet1 w mode axis) s1 h) k) = packet_read (dec1 w mode axis) ["a"; "d"]%char x m k.
Proof.
  intros Ht Hm Hh. set (B := packet1 w mode axis) in *.
  assert (P1 : forall (b : be_st B) (t : tensor K), True -> True -> True /\ snd (be_dec B b t) = dec1 w mode axis t) by (intros; split; [exact I|reflexivity]).
  assert (P2 : forall (t : tensor K) ch, True -> dec1 w mode axis t = Ok ch -> List.length ch = List.length (be_letters B) /\ Forall (fun _ => True) ch).
  { intros t ch _ E. split; [|apply Forall_forall; auto]. unfold dec1 in E. destruct (shape_at t axis); [|discriminate]. cbn in E.
    destruct (wavedec t w _ _ _) as [c|]; [|discriminate]. cbn in E. destruct (pc_items c) as [|p1 l1]; try discriminate.
    destruct p1; try discriminate. destruct l1 as [|p2 l2]; try discriminate. destruct p2; try discriminate. destruct l2; try discriminate. injection E as <-. reflexivity. }
  pose proof (holds_read B nodup1 (fun _ => True) (fun _ => True) (dec1 w mode axis) P1 P2 x m k I (pk_run B s1 h)) as [_ H].
  - apply (holds_run B nodup1 (fun _ => True) (fun _ => True) (dec1 w mode axis) P1 P2 x m h I Hh). apply (transform_holds B (fun _ => True) (dec1 w mode axis) s0 x maxlevel); auto.
  - exact H.
Qed.
Theorem C26_packet_reads_2d w mode axes separable s0 x maxlevel s1 m h k :
  pk_transform (packet2 w mode axes separable) s0 x maxlevel = (s1, Ok tt) -> p_max s1 = Some m ->
  Forall read_op h ->
  snd (pk_get (packet2 w mode axes separable) (pk_run (packet2 w mode axes separable) s1 h) k) = packet_read (dec2 w mode axes separable) ["a"; "h"; "v"; "d"]%char x m k.
Proof.
  intros Ht Hm Hh. set (B := packet2 w mode axes separable) in *.
  assert (P1 : forall (b : be_st B) (t : tensor K), True -> True -> True /\ snd (be_dec B b t) = dec2 w mode axes separable t) by (intros; split; [exact I|reflexivity]).
  assert (P2 : forall (t : tensor K) ch, True -> dec2 w mode axes separable t = Ok ch -> List.length ch = List.length (be_letters B) /\ Forall (fun _ => True) ch).
  { intros t ch _ E. split; [|apply Forall_forall; auto]. unfold dec2 in E. destruct (swap_axes axes t); [|discriminate]. cbn in E. destruct separable.
    - destruct (fswavedec2 t w _ _ _) as [c|]; [|discriminate]. cbn in E. destruct (pc_items c) as [|p1 l1]; try discriminate.
      destruct p1; try discriminate. destruct l1 as [|p2 l2]; try discriminate. destruct p2 as [?|?|d|]; try discriminate. destruct l2; try discriminate.
      destruct (dict_get d "ad"); [|discriminate]. destruct (dict_get d "da"); [|discriminate]. destruct (dict_get d "dd"); [|discriminate]. injection E as <-. reflexivity.
    - destruct (wavedec2 t w _ _ _) as [c|]; [|discriminate]. cbn in E. destruct (pc_items c) as [|p1 l1]; try discriminate.
      destruct p1; try discriminate. destruct l1 as [|p2 l2]; try discriminate. destruct p2 as [?|l|d|]; try discriminate.
      destruct l as [|b1 [|b2 [|b3 [|]]]]; try discriminate. destruct l2; try discriminate. injection E as <-. reflexivity. }
  pose proof (holds_read B nodup2 (fun _ => True) (fun _ => True) (dec2 w mode axes separable) P1 P2 x m k I (pk_run B s1 h)) as [_ H].
  - apply (holds_run B nodup2 (fun _ => True) (fun _ => True) (dec2 w mode axes separable) P1 P2 x m h I Hh). apply (transform_holds B (fun _ => True) (dec2 w mode axes separable) s0 x maxlevel); auto.
  - exact H.
Qed.

(** the node is the iterated single-level DWT, one filter per letter *)
Theorem C26_node_formula_1d w m L axis x p v : even_bank w L -> wf x ->
  node_at (dec1 w (mode_name m) axis) ["a"; "d"]%char x p = Ok v ->
  v = packet_node (filters1 (dec_lo w) (dec_hi w)) m [norm_axis (rank x) axis] p x.
Proof.
  intros Hb Hw H. apply (node_formula _ _ (filters1 (dec_lo w) (dec_hi w)) m (fun r => [norm_axis r axis])) in H; auto.
  intros t ch Ht E. destruct (dec1_inv w m L axis t ch Hb Ht E) as (_ & _ & _ & ->). reflexivity.
Qed.
Theorem C26_node_formula_2d w m L axes separable x p v : even_bank w L -> wf x -> List.length axes = 2 ->
  node_at (dec2 w (mode_name m) axes separable) ["a"; "h"; "v"; "d"]%char x p = Ok v ->
  v = packet_node (filters2 separable (dec_lo w) (dec_hi w)) m (map (norm_axis (rank x)) axes) p x.
Proof.
  intros Hb Hw Hla H. apply (node_formula _ _ (filters2 separable (dec_lo w) (dec_hi w)) m (fun r => map (norm_axis r) axes)) in H; auto.
  intros t ch Ht E. destruct (dec2_inv w m L axes separable t ch Hb Ht Hla E) as (_ & _ & _ & ->). reflexivity.
Qed.
(** with the default maxlevel every node of the tree can be read *)
Theorem C26_default_level_1d w m L axis s0 x h k : even_bank w L -> wf x -> float_tensor x -> axis_ok (rank x) axis ->
  1 <= nth (norm_axis (rank x) axis) (shp x) 0 ->
  let J := default_level L (nth (norm_axis (rank x) axis) (shp x) 0) in
  exists s1, pk_transform (packet1 w (mode_name m) axis) s0 x None = (s1, Ok tt) /\ p_max s1 = Some (Z.of_nat J) /\
    (Forall read_op h -> word ["a"; "d"]%char k -> List.length k <= J ->
     snd (pk_get (packet1 w (mode_name m) axis) (pk_run _ s1 h) k) = Ok (packet_node (filters1 (dec_lo w) (dec_hi w)) m [norm_axis (rank x) axis] k x)).
Proof.
  intros Hb Hw Hf Hax Hn J. set (a := norm_axis (rank x) axis) in *. destruct Hb as (H1 & H2 & HL & He).
  assert (Hd : is_dtype_supported (tdtype x) = true) by (apply is_float; exact Hf).
  assert (Ht : pk_transform (packet1 w (mode_name m) axis) s0 x None = (mkP [([], x)] (Some (Z.of_nat J)) (p_be s0), Ok tt)).
  { unfold pk_transform. cbn [packet1 be_maxlevel]. rewrite shape_at_ok by exact Hax. cbn [rbind]. fold a. unfold get_len. rewrite H1, dwt_max_level_val by exact HL. reflexivity. }
  eexists. split; [exact Ht|]. split; [reflexivity|]. intros Hh Hk Hl.
  rewrite (C26_packet_reads_1d w (mode_name m) axis s0 x None _ (Z.of_nat J) h k Ht eq_refl Hh).
  unfold packet_read. destruct k as [|c k]; [reflexivity|]. rewrite (proj2 (Z.leb_le _ _)) by lia. 
  apply (node_exists (dec1 w (mode_name m) axis) ["a"; "d"]%char (filters1 (dec_lo w) (dec_hi w)) m L (fun r => [norm_axis r axis])) with (J := J) (axok := fun r => axis_ok r axis); auto.
  - intros t ch Ht' E. destruct (dec1_inv w m L axis t ch (conj H1 (conj H2 (conj HL He))) Ht' E) as (_ & _ & _ & ->). reflexivity.
  - intros c'. unfold filters1. destruct (Ascii.eqb c' "d"); repeat constructor; assumption.
  - intros t Ht' Hdt Hao Ha. eexists. apply (dec1_ok w m L axis t (conj H1 (conj H2 (conj HL He))) Ht' Hdt Hao).
    apply Forall_inv in Ha. exact Ha.
  - apply good_axes1. apply norm_axis_lt. exact Hax.
  - repeat constructor. apply default_level_ok; auto.
Qed.

Lemma default_level_mono L n n' : 2 <= L -> n <= n' -> default_level L n <= default_level L n'.
Proof.
  intros HL H. unfold default_level. destruct (Nat.ltb_spec n (L - 1)); [lia|]. destruct (Nat.ltb_spec n' (L - 1)); [lia|].
  apply Nat.log2_le_mono. apply Nat.div_le_mono; lia.
Qed.
Theorem C26_default_level_2d w m L axes separable s0 x h k : even_bank w L -> wf x -> float_tensor x -> List.length axes = 2 -> axes_ok (rank x) axes ->
  Forall (fun n => 1 <= n) (gather (map (norm_axis (rank x)) axes) 0 (shp x)) ->
  let nax := map (norm_axis (rank x)) axes in
  exists s1 J, J = default_level L (Nat.min (nth (nth 0 nax 0) (shp x) 0) (nth (nth 1 nax 0) (shp x) 0)) /\
    pk_transform (packet2 w (mode_name m) axes separable) s0 x None = (s1, Ok tt) /\ p_max s1 = Some (Z.of_nat J) /\
    (Forall read_op h -> word ["a"; "h"; "v"; "d"]%char k -> List.length k <= J ->
     snd (pk_get (packet2 w (mode_name m) axes separable) (pk_run _ s1 h) k) = Ok (packet_node (filters2 separable (dec_lo w) (dec_hi w)) m nax k x)).
Proof.
  intros Hb Hw Hf Hla Hax Hn nax. pose proof Hb as (H1 & H2 & HL & He). fold nax in Hn.
  assert (Hd : is_dtype_supported (tdtype x) = true) by (apply is_float; exact Hf).
  pose proof (good_axes_ok _ _ Hax) as Hg. fold nax in Hg.
  assert (Hln : List.length nax = 2) by (unfold nax; rewrite map_length; exact Hla).
  assert (Hsz : exists F, shp (permute_nat x (perm_of nax (rank x))) = F ++ [nth (nth 0 nax 0) (shp x) 0; nth (nth 1 nax 0) (shp x) 0]).
  { exists (fsz nax (shp x)). destruct nax as [|a1 [|a2 [|]]]; try discriminate. unfold perm_of. cbn [permute_nat shp tmake]. unfold gather. rewrite map_app. reflexivity. }
  destruct Hsz as [F Hsz]. set (n1 := nth (nth 0 nax 0) (shp x) 0) in *. set (n2 := nth (nth 1 nax 0) (shp x) 0) in *.
  set (J := default_level L (Nat.min n1 n2)).
  assert (Ht : pk_transform (packet2 w (mode_name m) axes separable) s0 x None = (mkP [([], x)] (Some (Z.of_nat J)) (p_be s0), Ok tt)).
  { unfold pk_transform. cbn [packet2 be_maxlevel]. rewrite swap_axes_ok by exact Hax. cbn [rbind]. fold nax. set (T := permute_nat x (perm_of nax (rank x))) in *.
    assert (ED : forall i, dim_last T i = nth (List.length F + 2 - i) (F ++ [n1; n2]) 0) by (intros i; unfold dim_last, rank; rewrite Hsz, app_length; reflexivity).
    rewrite !ED. rewrite !app_nth2 by lia. replace (List.length F + 2 - 2 - List.length F) with 0 by lia. replace (List.length F + 2 - 1 - List.length F) with 1 by lia. cbn [nth].
    unfold get_len. rewrite H1, dwt_max_level_val by exact HL. reflexivity. }
  eexists. exists J. split; [reflexivity|]. split; [exact Ht|]. split; [reflexivity|]. intros Hh Hk Hl.
  rewrite (C26_packet_reads_2d w (mode_name m) axes separable s0 x None _ (Z.of_nat J) h k Ht eq_refl Hh).
  unfold packet_read. destruct k as [|c k]; [reflexivity|]. rewrite (proj2 (Z.leb_le _ _)) by lia.
  apply (node_exists (dec2 w (mode_name m) axes separable) ["a"; "h"; "v"; "d"]%char (filters2 separable (dec_lo w) (dec_hi w)) m L (fun r => map (norm_axis r) axes)) with (J := J) (axok := fun r => axes_ok r axes); auto.
  - intros t ch Ht' E. destruct (dec2_inv w m L axes separable t ch Hb Ht' Hla E) as (_ & _ & _ & ->). reflexivity.
  - intros c' r. rewrite map_length, Hla. unfold filters2. destruct (Ascii.eqb c' "d"); [reflexivity|]. destruct (Ascii.eqb c' _); [reflexivity|]. destruct (Ascii.eqb c' _); reflexivity.
  - intros c'. unfold filters2. destruct (Ascii.eqb c' "d"); [repeat constructor; assumption|]. destruct (Ascii.eqb c' _); [repeat constructor; assumption|]. destruct (Ascii.eqb c' _); repeat constructor; assumption.
  - intros t Ht' Hdt Hao Ha. eexists. apply (dec2_ok w m L axes separable t Hb Ht' Hdt Hla Hao Ha).
  - fold nax. unfold n1, n2 in J. destruct nax as [|a1 [|a2 [|]]]; try discriminate. cbn [gather map nth] in *.
    constructor; [|constructor; [|constructor]]; apply default_level_ok; auto; try apply default_level_mono; try lia.
    + apply Forall_inv in Hn. lia.
    + apply Forall_inv_tail, Forall_inv in Hn. lia.
Qed.

(** ** C27 *)
(** reads before transform *)
Theorem C27_no_data (B : backend K) b k : pk_get B (pk_new B b) k = (pk_new B b, Raise ValueError).
Proof. apply pk_get_none. reflexivity. Qed.
(** a key that is not stored and longer than maxlevel; any object state *)
Theorem C27_too_long (B : backend K) s m k : p_max s = Some m -> kget (p_data s) k = None -> (m < Z.of_nat (List.length k))%Z ->
  pk_get B s k = (s, Raise KeyError).
Proof. apply pk_get_long. Qed.
(** a foreign character; any object state in which no extension of it within k was stored by hand *)
Theorem C27_foreign_letter (B : backend K) s m (u : key) c (v : key) : p_max s = Some m -> ~ In c (be_letters B) ->
  (Z.of_nat (List.length (u ++ c :: v)) <= m)%Z ->
  (forall v1 v2, v = v1 ++ v2 -> kget (p_data s) (u ++ c :: v1) = None) ->
  pk_get B s (u ++ c :: v) = (s, Raise ValueError).
Proof.
  intros Hm Hc. induction v as [|e v IH] using rev_ind; intros Hl Hk.
  - apply (pk_get_foreign B s u c m Hm); [apply (Hk [] []); reflexivity|rewrite app_length in Hl; cbn in Hl; lia|exact Hc].
  - assert (Ek : kget (p_data s) ((u ++ c :: v) ++ [e]) = None).
    { rewrite <- app_assoc. apply (Hk (v ++ [e]) []). rewrite app_nil_r. reflexivity. }
    assert (Hl' : (Z.of_nat (S (List.length (u ++ c :: v))) <= m)%Z) by (rewrite app_length in *; cbn in *; rewrite app_length in Hl; cbn in Hl; lia).
    replace (u ++ c :: v ++ [e]) with ((u ++ c :: v) ++ [e]) by (rewrite <- app_assoc; reflexivity).
    destruct (in_dec ascii_dec e (be_letters B)) as [He|He].
    + rewrite (pk_get_step B s (u ++ c :: v) e m Hm Ek Hl' He). rewrite IH; [reflexivity|lia|].
      intros v1 v2 E. apply (Hk v1 (v2 ++ [e])). rewrite E, <- app_assoc. reflexivity.
    + apply (pk_get_foreign B s _ e m Hm Ek Hl' He).
Qed.

(** in objects that were only read after transform: every key with a foreign letter (short enough) *)
Theorem C27_foreign_1d w mode axis s0 x maxlevel s1 m h k : pk_transform (packet1 w mode axis) s0 x maxlevel = (s1, Ok tt) -> p_max s1 = Some m ->
  Forall read_op h -> (Z.of_nat (List.length k) <= m)%Z -> ~ word ["a"; "d"]%char k ->
  snd (pk_get (packet1 w mode axis) (pk_run (packet1 w mode axis) s1 h) k) = Raise ValueError.
Proof.
  intros Ht Hm Hh Hl Hk. rewrite (C26_packet_reads_1d w mode axis s0 x maxlevel s1 m h k Ht Hm Hh). unfold packet_read.
  destruct k as [|c k]; [exfalso; apply Hk; constructor|]. rewrite (proj2 (Z.leb_le _ _) Hl). apply node_foreign. exact Hk.
Qed.
Theorem C27_foreign_2d w mode axes separable s0 x maxlevel s1 m h k : pk_transform (packet2 w mode axes separable) s0 x maxlevel = (s1, Ok tt) -> p_max s1 = Some m ->
  Forall read_op h -> (Z.of_nat (List.length k) <= m)%Z -> ~ word ["a"; "h"; "v"; "d"]%char k ->
  snd (pk_get (packet2 w mode axes separable) (pk_run (packet2 w mode axes separable) s1 h) k) = Raise ValueError.
Proof.
  intros Ht Hm Hh Hl Hk. rewrite (C26_packet_reads_2d w mode axes separable s0 x maxlevel s1 m h k Ht Hm Hh). unfold packet_read.
  destruct k as [|c k]; [exfalso; apply Hk; constructor|]. rewrite (proj2 (Z.leb_le _ _) Hl). apply node_foreign. exact Hk.
Qed.

(** ** C28 *)
(** initialize() with the keys l computes them all *)
Lemma init_present (B : backend K) l : forall s s', NoDup (be_letters B) -> pk_init B s l = (s', Ok tt) -> forall k, In k l -> kget (p_data s') k <> None.
Proof.
  induction l as [|k0 l IH]; intros s s' Hn H k Hk; [destruct Hk|]. cbn [pk_init] in H. pose proof (get_ok_stored B k0 s) as Hs.
  destruct (pk_get B s k0) as [s1 r]. cbn [fst snd] in Hs. destruct r as [v|e]; [|discriminate]. destruct Hk as [<-|Hk]; [|eapply IH; eassumption].
  pose proof (init_effect B Hn l s1) as (_ & Hg & _). rewrite H in Hg. cbn [fst] in Hg. apply Hg. rewrite (Hs v eq_refl). discriminate.
Qed.

Theorem C28_reconstruct_1d w m L axis s0 x maxlevel s1 M h s2 :
  cancel2 K -> pr_bank (dec_lo w) (dec_hi w) (rec_lo w) (rec_hi w) L -> wf x ->
  let B := packet1 w (mode_name m) axis in
  pk_transform B s0 x maxlevel = (s1, Ok tt) -> p_max s1 = Some M -> (1 <= M)%Z ->
  Forall read_op h -> pk_run B s1 h = s2 ->
  (** all leaves are present *)
  (forall p, word ["a"; "d"]%char p -> List.length p = Z.to_nat M -> kget (p_data s2) p <> None) ->
  exists s3 y, pk_reconstruct B s2 = (s3, Ok tt) /\ kget (p_data s3) [] = Some y /\
    agrees_on x y /\ let a := norm_axis (rank x) axis in shp y = updn a (even_up (nth a (shp x) 0)) (shp x).
Proof.
  intros Hc Hpr Hw B Ht HM H1 Hh Hrun Hleaf. pose proof (pr_len _ _ _ _ _ Hpr) as (E1 & E2 & _).
  pose proof (conj E1 (conj E2 (conj (pr_two _ _ _ _ _ Hpr) (pr_even _ _ _ _ _ Hpr)))) as Hb. change (even_bank w L) in Hb.
  set (f := dec1 w (mode_name m) axis).
  assert (P1 : forall (b : be_st B) (t : tensor K), True -> wf t -> True /\ snd (be_dec B b t) = f t) by (intros; split; [exact I|reflexivity]).
  assert (P2 : forall (t : tensor K) ch, wf t -> f t = Ok ch -> List.length ch = List.length (be_letters B) /\ Forall (@wf K) ch).
  { intros t ch Hwt E. destruct (dec1_inv w m L axis t ch Hb Hwt E) as (_ & _ & _ & ->). split; [reflexivity|]. repeat constructor; apply wf_make. }
  assert (Hs : holds B (fun _ => True) f x M s2).
  { rewrite <- Hrun. apply (holds_run B nodup1 (fun _ => True) (@wf K) f P1 P2 x M h Hw Hh). apply (transform_holds B (fun _ => True) f s0 x maxlevel); auto. }
  destruct (reconstruct_pr B nodup1 order_ok1 (fun _ => True) (@wf K) f (rec1 w axis) P2 (fun _ => True)) with (R := fun t r => r = ext_even m [norm_axis (rank t) axis] t) (x := x) (m := M) (s := s2)
    as (s3 & ch & r & R1 & R2 & R3 & R4 & R5); auto.
  - intros t ch Hwt E. destruct (dec1_inv w m L axis t ch Hb Hwt E) as (_ & Hax & _). eexists. split; [apply (rec1_pr w m L axis t ch Hc Hpr Hwt E)|]. split; [|reflexivity].
    apply crop1_ok; assumption.
  - discriminate.
  - exists s3, r. split; [exact R1|]. split; [exact R5|]. subst r. destruct (dec1_inv w m L axis x ch Hb Hw R2) as (_ & Hax & _).
    split; [apply ext_even_agrees; [exact Hw|apply good_axes1, norm_axis_lt; exact Hax]|]. cbv zeta. rewrite shp_ext_even. reflexivity.
Qed.
Theorem C28_reconstruct_2d w m L axes separable s0 x maxlevel s1 M h s2 :
  cancel2 K -> pr_bank (dec_lo w) (dec_hi w) (rec_lo w) (rec_hi w) L -> wf x -> List.length axes = 2 ->
  let B := packet2 w (mode_name m) axes separable in
  pk_transform B s0 x maxlevel = (s1, Ok tt) -> p_max s1 = Some M -> (1 <= M)%Z ->
  Forall read_op h -> pk_run B s1 h = s2 ->
  (forall p, word ["a"; "h"; "v"; "d"]%char p -> List.length p = Z.to_nat M -> kget (p_data s2) p <> None) ->
  exists s3 y, pk_reconstruct B s2 = (s3, Ok tt) /\ kget (p_data s3) [] = Some y /\
    agrees_on x y /\ let nax := map (norm_axis (rank x)) axes in shp y = upds nax (map even_up (gather nax 0 (shp x))) (shp x).
Proof.
  intros Hc Hpr Hw Hla B Ht HM H1 Hh Hrun Hleaf. pose proof (pr_len _ _ _ _ _ Hpr) as (E1 & E2 & _).
  pose proof (conj E1 (conj E2 (conj (pr_two _ _ _ _ _ Hpr) (pr_even _ _ _ _ _ Hpr)))) as Hb. change (even_bank w L) in Hb.
  set (f := dec2 w (mode_name m) axes separable).
  assert (P1 : forall (b : be_st B) (t : tensor K), True -> wf t -> True /\ snd (be_dec B b t) = f t) by (intros; split; [exact I|reflexivity]).
  assert (P2 : forall (t : tensor K) ch, wf t -> f t = Ok ch -> List.length ch = List.length (be_letters B) /\ Forall (@wf K) ch).
  { intros t ch Hwt E. destruct (dec2_inv w m L axes separable t ch Hb Hwt Hla E) as (_ & _ & _ & ->). split; [reflexivity|]. repeat constructor; apply wf_make. }
  assert (Hs : holds B (fun _ => True) f x M s2).
  { rewrite <- Hrun. apply (holds_run B nodup2 (fun _ => True) (@wf K) f P1 P2 x M h Hw Hh). apply (transform_holds B (fun _ => True) f s0 x maxlevel); auto. }
  destruct (reconstruct_pr B nodup2 order_ok2 (fun _ => True) (@wf K) f (rec2 w axes separable) P2 (fun _ => True)) with (R := fun t r => r = ext_even m (map (norm_axis (rank t)) axes) t) (x := x) (m := M) (s := s2)
    as (s3 & ch & r & R1 & R2 & R3 & R4 & R5); auto.
  - intros t ch Hwt E. destruct (dec2_inv w m L axes separable t ch Hb Hwt Hla E) as (_ & Hax & _). eexists. split; [apply (rec2_pr w m L axes separable t ch Hc Hpr Hwt Hla E)|]. split; [|reflexivity].
    apply crop2_ok; assumption.
  - discriminate.
  - exists s3, r. split; [exact R1|]. split; [exact R5|]. subst r. destruct (dec2_inv w m L axes separable x ch Hb Hw Hla R2) as (_ & Hax & _).
    split; [apply ext_even_agrees; [exact Hw|apply good_axes_ok; exact Hax]|]. cbv zeta. apply shp_ext_even.
Qed.
(** the usual sequence of calls: transform, any reads, initialize(leaves), reconstruct *)
Theorem C28_initialize_reconstruct_1d w m L axis s0 x maxlevel s1 M h leaves s2 :
  cancel2 K -> pr_bank (dec_lo w) (dec_hi w) (rec_lo w) (rec_hi w) L -> wf x ->
  let B := packet1 w (mode_name m) axis in
  pk_transform B s0 x maxlevel = (s1, Ok tt) -> p_max s1 = Some M -> (1 <= M)%Z ->
  Forall read_op h -> pk_init B (pk_run B s1 h) leaves = (s2, Ok tt) ->
  (forall p, word ["a"; "d"]%char p -> List.length p = Z.to_nat M -> In p leaves) ->
  exists s3 y, pk_reconstruct B s2 = (s3, Ok tt) /\ kget (p_data s3) [] = Some y /\
    agrees_on x y /\ let a := norm_axis (rank x) axis in shp y = updn a (even_up (nth a (shp x) 0)) (shp x).
Proof.
  intros Hc Hpr Hw B Ht HM H1 Hh Hi Hl.
  apply (C28_reconstruct_1d w m L axis s0 x maxlevel s1 M (h ++ [OInit leaves]) s2 Hc Hpr Hw Ht HM H1).
  - apply Forall_app. split; [exact Hh|repeat constructor].
  - unfold pk_run. rewrite fold_left_app. exact (f_equal fst Hi).
  - intros p Hp Hlp. apply (init_present B leaves _ _ nodup1 Hi). apply Hl; assumption.
Qed.
Theorem C28_initialize_reconstruct_2d w m L axes separable s0 x maxlevel s1 M h leaves s2 :
  cancel2 K -> pr_bank (dec_lo w) (dec_hi w) (rec_lo w) (rec_hi w) L -> wf x -> List.length axes = 2 ->
  let B := packet2 w (mode_name m) axes separable in
  pk_transform B s0 x maxlevel = (s1, Ok tt) -> p_max s1 = Some M -> (1 <= M)%Z ->
  Forall read_op h -> pk_init B (pk_run B s1 h) leaves = (s2, Ok tt) ->
  (forall p, word ["a"; "h"; "v"; "d"]%char p -> List.length p = Z.to_nat M -> In p leaves) ->
  exists s3 y, pk_reconstruct B s2 = (s3, Ok tt) /\ kget (p_data s3) [] = Some y /\
    agrees_on x y /\ let nax := map (norm_axis (rank x)) axes in shp y = upds nax (map even_up (gather nax 0 (shp x))) (shp x).
Proof.
  intros Hc Hpr Hw Hla B Ht HM H1 Hh Hi Hl.
  apply (C28_reconstruct_2d w m L axes separable s0 x maxlevel s1 M (h ++ [OInit leaves]) s2 Hc Hpr Hw Hla Ht HM H1).
  - apply Forall_app. split; [exact Hh|repeat constructor].
  - unfold pk_run. rewrite fold_left_app. exact (f_equal fst Hi).
  - intros p Hp Hlp. apply (init_present B leaves _ _ nodup2 Hi). apply Hl; assumption.
Qed.
(** initialize() with readable keys *)
Lemma init_readable (B : backend K) s l : (forall h, Forall read_op h -> forall k, In k l -> exists v, snd (pk_get B (pk_run B s h) k) = Ok v) ->
  forall h, Forall read_op h -> exists s2, pk_init B (pk_run B s h) l = (s2, Ok tt).
Proof.
  induction l as [|k l IH]; intros Hr h Hh; [eexists; reflexivity|]. cbn [pk_init]. destruct (Hr h Hh k (or_introl eq_refl)) as [v Hv].
  destruct (IH (fun h' Hh' k' Hk' => Hr h' Hh' k' (or_intror Hk')) (h ++ [ORead k])) as [s2 H2]; [apply Forall_app; split; [exact Hh|repeat constructor]|].
  unfold pk_run in H2 at 1. rewrite fold_left_app in H2. cbn [fold_left pk_step] in H2. fold (pk_run B s h) in H2.
  destruct (pk_get B (pk_run B s h) k) as [s1 r]. cbn [fst snd] in *. subst r. exists s2. exact H2.
Qed.
(** the round trip at the default depth: transform, any reads, initialize with all leaves, reconstruct - never fails *)
Theorem C28_round_trip_1d w m L axis s0 x h leaves :
  cancel2 K -> pr_bank (dec_lo w) (dec_hi w) (rec_lo w) (rec_hi w) L -> wf x -> float_tensor x -> axis_ok (rank x) axis ->
  let B := packet1 w (mode_name m) axis in let a := norm_axis (rank x) axis in let J := default_level L (nth a (shp x) 0) in
  1 <= nth a (shp x) 0 -> 1 <= J -> Forall read_op h ->
  (forall p, word ["a"; "d"]%char p -> List.length p = J -> In p leaves) -> Forall (fun p => word ["a"; "d"]%char p /\ List.length p <= J) leaves ->
  exists s1 s2 s3 y, pk_transform B s0 x None = (s1, Ok tt) /\ pk_init B (pk_run B s1 h) leaves = (s2, Ok tt) /\ pk_reconstruct B s2 = (s3, Ok tt) /\
    kget (p_data s3) [] = Some y /\ agrees_on x y /\ shp y = updn a (even_up (nth a (shp x) 0)) (shp x).
Proof.
  intros Hc Hpr Hw Hf Hax B a J Hn HJ Hh Hl Hlv. pose proof (pr_len _ _ _ _ _ Hpr) as (E1 & E2 & _).
  pose proof (conj E1 (conj E2 (conj (pr_two _ _ _ _ _ Hpr) (pr_even _ _ _ _ _ Hpr)))) as Hb. change (even_bank w L) in Hb.
  destruct (C26_default_level_1d w m L axis s0 x [] [] Hb Hw Hf Hax Hn) as (s1 & Ht & HM & _). fold a J in HM.
  assert (Hr : forall h, Forall read_op h -> forall k, In k leaves -> exists v, snd (pk_get B (pk_run B s1 h) k) = Ok v).
  { intros h' Hh' k Hk. rewrite Forall_forall in Hlv. destruct (Hlv k Hk) as [W1 W2]. destruct (C26_default_level_1d w m L axis s0 x h' k Hb Hw Hf Hax Hn) as (s1' & Ht' & _ & HR).
    rewrite Ht in Ht'. apply (f_equal fst) in Ht'. cbn [fst] in Ht'. subst s1'. eexists. apply HR; assumption. }
  destruct (init_readable B s1 leaves Hr h Hh) as [s2 Hi].
  destruct (C28_initialize_reconstruct_1d w m L axis s0 x None s1 (Z.of_nat J) h leaves s2 Hc Hpr Hw Ht HM) as (s3 & y & R); auto; [lia|intros p; rewrite Nat2Z.id; apply Hl|].
  exists s1, s2, s3, y. split; [exact Ht|]. split; [exact Hi|exact R].
Qed.
Theorem C28_round_trip_2d w m L axes separable s0 x h leaves :
  cancel2 K -> pr_bank (dec_lo w) (dec_hi w) (rec_lo w) (rec_hi w) L -> wf x -> float_tensor x -> List.length axes = 2 -> axes_ok (rank x) axes ->
  let B := packet2 w (mode_name m) axes separable in let nax := map (norm_axis (rank x)) axes in
  let J := default_level L (Nat.min (nth (nth 0 nax 0) (shp x) 0) (nth (nth 1 nax 0) (shp x) 0)) in
  Forall (fun n => 1 <= n) (gather nax 0 (shp x)) -> 1 <= J -> Forall read_op h ->
  (forall p, word ["a"; "h"; "v"; "d"]%char p -> List.length p = J -> In p leaves) -> Forall (fun p => word ["a"; "h"; "v"; "d"]%char p /\ List.length p <= J) leaves ->
  exists s1 s2 s3 y, pk_transform B s0 x None = (s1, Ok tt) /\ pk_init B (pk_run B s1 h) leaves = (s2, Ok tt) /\ pk_reconstruct B s2 = (s3, Ok tt) /\
    kget (p_data s3) [] = Some y /\ agrees_on x y /\ shp y = upds nax (map even_up (gather nax 0 (shp x))) (shp x).
Proof.
  intros Hc Hpr Hw Hf Hla Hax B nax J Hn HJ Hh Hl Hlv. pose proof (pr_len _ _ _ _ _ Hpr) as (E1 & E2 & _).
  pose proof (conj E1 (conj E2 (conj (pr_two _ _ _ _ _ Hpr) (pr_even _ _ _ _ _ Hpr)))) as Hb. change (even_bank w L) in Hb.
  destruct (C26_default_level_2d w m L axes separable s0 x [] [] Hb Hw Hf Hla Hax Hn) as (s1 & J' & EJ & Ht & HM & _). fold nax in EJ. fold J in EJ. subst J'.
  assert (Hr : forall h, Forall read_op h -> forall k, In k leaves -> exists v, snd (pk_get B (pk_run B s1 h) k) = Ok v).
  { intros h' Hh' k Hk. rewrite Forall_forall in Hlv. destruct (Hlv k Hk) as [W1 W2]. destruct (C26_default_level_2d w m L axes separable s0 x h' k Hb Hw Hf Hla Hax Hn) as (s1' & J' & EJ & Ht' & _ & HR). fold nax in EJ. fold J in EJ. subst J'.
    rewrite Ht in Ht'. apply (f_equal fst) in Ht'. cbn [fst] in Ht'. subst s1'. eexists. apply HR; assumption. }
  destruct (init_readable B s1 leaves Hr h Hh) as [s2 Hi].
  destruct (C28_initialize_reconstruct_2d w m L axes separable s0 x None s1 (Z.of_nat J) h leaves s2 Hc Hpr Hw Hla Ht HM) as (s3 & y & R); auto; [lia|intros p; rewrite Nat2Z.id; apply Hl|].
  exists s1, s2, s3, y. split; [exact Ht|]. split; [exact Hi|exact R].
Qed.
(** a tree without levels is left alone *)
Theorem C28_no_levels (B : backend K) s M : p_max s = Some M -> (M <= 0)%Z -> pk_reconstruct B s = (s, Ok tt).
Proof. intros H HM. unfold pk_reconstruct. rewrite H. replace (Z.to_nat M) with 0 by lia. reflexivity. Qed.

(** ** C29 *)
(** any object state whatsoever: a missing leaf makes reconstruct fail *)
Theorem C29_missing_leaf_1d w mode axis s M p : let B := packet1 w mode axis in
  p_max s = Some M -> List.length p = Z.to_nat M -> 1 <= List.length p -> word ["a"; "d"]%char p -> kget (p_data s) p = None ->
  exists e, snd (pk_reconstruct B s) = Raise e.
Proof. intros B. apply (reconstruct_needs B nodup1 order_ok1). Qed.
Theorem C29_missing_leaf_2d w mode axes separable s M p : let B := packet2 w mode axes separable in
  p_max s = Some M -> List.length p = Z.to_nat M -> 1 <= List.length p -> word ["a"; "h"; "v"; "d"]%char p -> kget (p_data s) p = None ->
  exists e, snd (pk_reconstruct B s) = Raise e.
Proof. intros B. apply (reconstruct_needs B nodup2 order_ok2). Qed.
(** and it is a KeyError when the stored nodes are those of the packet tree *)
Theorem C29_missing_leaf_key_error_1d w m L axis s0 x maxlevel s1 M h p :
  cancel2 K -> pr_bank (dec_lo w) (dec_hi w) (rec_lo w) (rec_hi w) L -> wf x ->
  let B := packet1 w (mode_name m) axis in
  pk_transform B s0 x maxlevel = (s1, Ok tt) -> p_max s1 = Some M ->
  Forall read_op h -> word ["a"; "d"]%char p -> List.length p = Z.to_nat M -> p <> [] -> kget (p_data (pk_run B s1 h)) p = None ->
  snd (pk_reconstruct B (pk_run B s1 h)) = Raise KeyError.
Proof.
  intros Hc Hpr Hw B Ht HM Hh Hp Hl Hne Hk. pose proof (pr_len _ _ _ _ _ Hpr) as (E1 & E2 & _).
  pose proof (conj E1 (conj E2 (conj (pr_two _ _ _ _ _ Hpr) (pr_even _ _ _ _ _ Hpr)))) as Hb. change (even_bank w L) in Hb.
  set (f := dec1 w (mode_name m) axis).
  assert (P1 : forall (b : be_st B) (t : tensor K), True -> wf t -> True /\ snd (be_dec B b t) = f t) by (intros; split; [exact I|reflexivity]).
  assert (P2 : forall (t : tensor K) ch, wf t -> f t = Ok ch -> List.length ch = List.length (be_letters B) /\ Forall (@wf K) ch).
  { intros t ch Hwt E. destruct (dec1_inv w m L axis t ch Hb Hwt E) as (_ & _ & _ & ->). split; [reflexivity|]. repeat constructor; apply wf_make. }
  assert (Hs : holds B (fun _ => True) f x M (pk_run B s1 h)).
  { apply (holds_run B nodup1 (fun _ => True) (@wf K) f P1 P2 x M h Hw Hh). apply (transform_holds B (fun _ => True) f s0 x maxlevel); auto. }
  apply (reconstruct_missing B nodup1 order_ok1 (fun _ => True) (@wf K) f (rec1 w axis) P2 (fun _ => True)) with (R := fun t r => True) (x := x) (m := M) (p := p); auto.
  - intros t ch Hwt E. destruct (dec1_inv w m L axis t ch Hb Hwt E) as (_ & Hax & _). eexists. split; [apply (rec1_pr w m L axis t ch Hc Hpr Hwt E)|]. split; [|exact I].
    apply crop1_ok; assumption.
  - discriminate.
Qed.
Theorem C29_missing_leaf_key_error_2d w m L axes separable s0 x maxlevel s1 M h p :
  cancel2 K -> pr_bank (dec_lo w) (dec_hi w) (rec_lo w) (rec_hi w) L -> wf x -> List.length axes = 2 ->
  let B := packet2 w (mode_name m) axes separable in
  pk_transform B s0 x maxlevel = (s1, Ok tt) -> p_max s1 = Some M ->
  Forall read_op h -> word ["a"; "h"; "v"; "d"]%char p -> List.length p = Z.to_nat M -> p <> [] -> kget (p_data (pk_run B s1 h)) p = None ->
  snd (pk_reconstruct B (pk_run B s1 h)) = Raise KeyError.
Proof.
  intros Hc Hpr Hw Hla B Ht HM Hh Hp Hl Hne Hk. pose proof (pr_len _ _ _ _ _ Hpr) as (E1 & E2 & _).
  pose proof (conj E1 (conj E2 (conj (pr_two _ _ _ _ _ Hpr) (pr_even _ _ _ _ _ Hpr)))) as Hb. change (even_bank w L) in Hb.
  set (f := dec2 w (mode_name m) axes separable).
  assert (P1 : forall (b : be_st B) (t : tensor K), True -> wf t -> True /\ snd (be_dec B b t) = f t) by (intros; split; [exact I|reflexivity]).
  assert (P2 : forall (t : tensor K) ch, wf t -> f t = Ok ch -> List.length ch = List.length (be_letters B) /\ Forall (@wf K) ch).
  { intros t ch Hwt E. destruct (dec2_inv w m L axes separable t ch Hb Hwt Hla E) as (_ & _ & _ & ->). split; [reflexivity|]. repeat constructor; apply wf_make. }
  assert (Hs : holds B (fun _ => True) f x M (pk_run B s1 h)).
  { apply (holds_run B nodup2 (fun _ => True) (@wf K) f P1 P2 x M h Hw Hh). apply (transform_holds B (fun _ => True) f s0 x maxlevel); auto. }
  apply (reconstruct_missing B nodup2 order_ok2 (fun _ => True) (@wf K) f (rec2 w axes separable) P2 (fun _ => True)) with (R := fun t r => True) (x := x) (m := M) (p := p); auto.
  - intros t ch Hwt E. destruct (dec2_inv w m L axes separable t ch Hb Hwt Hla E) as (_ & Hax & _). eexists. split; [apply (rec2_pr w m L axes separable t ch Hc Hpr Hwt Hla E)|]. split; [|exact I].
    apply crop2_ok; assumption.
  - discriminate.
Qed.

(** the outcome and the new root are those of the bottom-up synthesis of the leaves; inner nodes only supply
    their shapes *)
Definition same_sizes (d d' : kdict (tensor K)) (letters : key) (N : nat) : Prop :=
  forall p, word letters p -> 1 <= List.length p < N -> exists v v', kget d p = Some v /\ kget d' p = Some v' /\ shp v = shp v'.
Definition same_leaves (d d' : kdict (tensor K)) (letters : key) (N : nat) : Prop :=
  forall p, word letters p -> List.length p = N -> exists v, kget d p = Some v /\ kget d' p = Some v.
Lemma rebuild_shapes g fit letters (lf lf' inn inn' : key -> option (tensor K)) :
  (forall r v v', shp v = shp v' -> fit r v = fit r v') -> forall n p, word letters p ->
  (forall q, word letters q -> List.length q = List.length p + n -> lf q = lf' q) ->
  (forall q, word letters q -> 1 <= List.length q < List.length p + n -> exists v v', inn q = Some v /\ inn' q = Some v' /\ shp v = shp v') ->
  rebuild g fit letters lf inn n p = rebuild g fit letters lf' inn' n p.
Proof.
  intros Hfit. induction n as [|n IH]; intros p Hp Hl Hi; cbn [rebuild]; [rewrite (Hl p); [reflexivity|exact Hp|lia]|].
  assert (E : rmap (fun c => rebuild g fit letters lf inn n (p ++ [c])) letters = rmap (fun c => rebuild g fit letters lf' inn' n (p ++ [c])) letters).
  { assert (G : forall ls, (forall c, In c ls -> In c letters) -> rmap (fun c => rebuild g fit letters lf inn n (p ++ [c])) ls = rmap (fun c => rebuild g fit letters lf' inn' n (p ++ [c])) ls).
    { induction ls as [|c ls IHl]; intros Hin; [reflexivity|]. cbn. rewrite (IH (p ++ [c])), IHl; [reflexivity|intros; apply Hin; right; assumption| | |].
      - apply Forall_app. split; [exact Hp|]. constructor; [apply Hin; left; reflexivity|constructor].
      - intros q Hq Hlq. rewrite app_length in Hlq. cbn in Hlq. apply Hl; [exact Hq|lia].
      - intros q Hq Hlq. rewrite app_length in Hlq. cbn in Hlq. apply Hi; [exact Hq|lia]. }
    apply G. auto. }
  rewrite E. destruct (rmap (fun c => rebuild g fit letters lf' inn' n (p ++ [c])) letters) as [ch|]; [|reflexivity]. cbn. destruct (g ch) as [r|]; [|reflexivity]. cbn. destruct p as [|c p]; [reflexivity|].
  destruct (Hi (c :: p) Hp) as (v & v' & -> & -> & Hs); [cbn; lia|]. apply Hfit. exact Hs.
Qed.
Lemma only_leaves (B : backend K) g (order_ok : forall l, NoDup (be_order B l) /\ forall p, In p (be_order B l) <-> List.length p = l /\ word (be_letters B) p) :
  (forall b ch, snd (be_rec B b ch) = g ch) -> (forall r v v', shp v = shp v' -> be_crop B r v = be_crop B r v') ->
  forall s s' M, p_max s = Some M -> p_max s' = Some M ->
  same_leaves (p_data s) (p_data s') (be_letters B) (Z.to_nat M) -> same_sizes (p_data s) (p_data s') (be_letters B) (Z.to_nat M) ->
  match pk_reconstruct B s, pk_reconstruct B s' with
  | (t, Ok _), (t', Ok _) => exists v, kget (p_data t) [] = Some v /\ kget (p_data t') [] = Some v /\
      rebuild g (be_crop B) (be_letters B) (kget (p_data s)) (kget (p_data s)) (Z.to_nat M) [] = Ok v
  | (_, Raise _), (_, Raise _) => True
  | _, _ => False
  end.
Proof.
  intros Hg Hcrop s s' M Hm Hm' Hl Hi.
  pose proof (reconstruct_rebuild B order_ok (fun _ => True) g (fun _ => True) (fun b ch _ _ => conj I (Hg b ch)) (fun _ _ _ _ => I) (fun _ _ _ _ _ => I)) as H.
  pose proof (H s M Hm I) as A1. pose proof (H s' M Hm' I) as A2. cbv zeta in A1, A2. clear H.
  set (N := Z.to_nat M) in *.
  specialize (A1 ltac:(intros p Hp Hlp; destruct (Hl p Hp Hlp) as (v & V1 & V2); eauto) ltac:(intros p Hp Hlp; destruct (Hi p Hp Hlp) as (v & v' & V1 & V2 & _); unfold present; congruence)).
  specialize (A2 ltac:(intros p Hp Hlp; destruct (Hl p Hp Hlp) as (v & V1 & V2); eauto) ltac:(intros p Hp Hlp; destruct (Hi p Hp Hlp) as (v & v' & V1 & V2 & _); unfold present; congruence)).
  assert (E : rebuild g (be_crop B) (be_letters B) (kget (p_data s)) (kget (p_data s)) N [] = rebuild g (be_crop B) (be_letters B) (kget (p_data s')) (kget (p_data s')) N []).
  { apply rebuild_shapes; [exact Hcrop|constructor| |].
    - intros q Hq Hlq. destruct (Hl q Hq Hlq) as (v & -> & ->). reflexivity.
    - intros q Hq Hlq. apply Hi; assumption. }
  rewrite <- E in A2. destruct (pk_reconstruct B s) as [t [o|e]]; destruct (pk_reconstruct B s') as [t' [o'|e']]; destruct A1 as (_ & _ & A1); destruct A2 as (_ & _ & A2).
  - destruct A1 as (v & V1 & V2). destruct A2 as (v' & V1' & V2'). exists v. rewrite V1 in V1'. injection V1' as <-. auto.
  - destruct A1 as (v & V1 & V2). destruct A2 as (e & V). congruence.
  - destruct A1 as (e0 & V). destruct A2 as (v & V1 & V2). congruence.
  - exact I.
Qed.
Lemma crop1_shape axis (r v v' : tensor K) : shp v = shp v' -> crop1 axis r v = crop1 axis r v'.
Proof. intros H. unfold crop1, shape_at, rank. rewrite H. reflexivity. Qed.
Lemma swap_axes_shape axes (v v' : tensor K) : shp v = shp v' ->
  match swap_axes axes v, swap_axes axes v' with Ok a, Ok b => shp a = shp b | Raise e, Raise e' => e = e' | _, _ => False end.
Proof.
  intros H. unfold swap_axes. assert (Er : rank v = rank v') by (unfold rank; rewrite H; reflexivity). rewrite Er.
  destruct (check_axes_argument axes); [|reflexivity]. cbn [rbind]. destruct (get_transpose_order axes (rank v')) as [fr bk]. unfold torch_permute. rewrite Er.
  destruct (negb _); [reflexivity|]. destruct (negb _); [reflexivity|]. cbv zeta. destruct (nodupb _); [|reflexivity].
  unfold permute_nat. cbn [shp tmake]. rewrite H. reflexivity.
Qed.
Lemma crop2_shape axes (r v v' : tensor K) : shp v = shp v' -> crop2 axes r v = crop2 axes r v'.
Proof.
  intros H. unfold crop2. destruct (swap_axes axes r) as [rs|]; [|reflexivity]. cbn [rbind]. pose proof (swap_axes_shape axes v v' H) as E.
  destruct (swap_axes axes v) as [a|]; destruct (swap_axes axes v') as [b|]; try contradiction; cbn [rbind]; [|congruence].
  assert (Ed : forall i, dim_last a i = dim_last b i) by (intros i; unfold dim_last, rank; rewrite E; reflexivity). rewrite !Ed. reflexivity.
Qed.
Theorem C29_only_leaves_1d_partial w mode axis s s' M : let B := packet1 w mode axis in let N := Z.to_nat M in
  p_max s = Some M -> p_max s' = Some M ->
  same_leaves (p_data s) (p_data s') ["a"; "d"]%char N -> same_sizes (p_data s) (p_data s') ["a"; "d"]%char N ->
  match pk_reconstruct B s, pk_reconstruct B s' with
  | (t, Ok _), (t', Ok _) => exists v, kget (p_data t) [] = Some v /\ kget (p_data t') [] = Some v /\
      rebuild (rec1 w axis) (crop1 axis) ["a"; "d"]%char (kget (p_data s)) (kget (p_data s)) N [] = Ok v
  | (_, Raise _), (_, Raise _) => True
  | _, _ => False
  end.
Proof. intros B N. apply (only_leaves B (rec1 w axis) order_ok1); [reflexivity|]. intros r v v' H. apply crop1_shape; exact H. Qed.
Theorem C29_only_leaves_2d_partial w mode axes separable s s' M : let B := packet2 w mode axes separable in let N := Z.to_nat M in
  p_max s = Some M -> p_max s' = Some M ->
  same_leaves (p_data s) (p_data s') ["a"; "h"; "v"; "d"]%char N -> same_sizes (p_data s) (p_data s') ["a"; "h"; "v"; "d"]%char N ->
  match pk_reconstruct B s, pk_reconstruct B s' with
  | (t, Ok _), (t', Ok _) => exists v, kget (p_data t) [] = Some v /\ kget (p_data t') [] = Some v /\
      rebuild (rec2 w axes separable) (crop2 axes) ["a"; "h"; "v"; "d"]%char (kget (p_data s)) (kget (p_data s)) N [] = Ok v
  | (_, Raise _), (_, Raise _) => True
  | _, _ => False
  end.
Proof. intros B N. apply (only_leaves B (rec2 w axes separable) order_ok2); [reflexivity|]. intros r v v' H. apply crop2_shape; exact H. Qed.

(** ** C30 *)
(** operations that neither assign k nor remove nodes nor rebuild the tree *)
Definition keeps (k : key) (o : op (K := K)) : Prop :=
  match o with ORead _ | OInit _ => True | OAssign q _ => q <> k | _ => False end.
Theorem C30_assigned_persists_partial (B : backend K) : NoDup (be_letters B) -> forall s M k v h,
  p_max s = Some M ->
  (** all siblings of k are stored (nothing to ask for the root) *)
  (forall p c, k = p ++ [c] -> forall c', In c' (be_letters B) -> c' <> c -> kget (p_data s) (p ++ [c']) <> None) ->
  Forall (keeps k) h ->
  let s' := pk_run B (pk_set B s k v) h in pk_get B s' k = (s', Ok v).
Proof.
  intros Hn s M k v h Hm Hsib Hh. cbv zeta.
  assert (G : forall s1, p_max s1 = Some M -> kget (p_data s1) k = Some v -> family_complete B s1 k ->
    p_max (pk_run B s1 h) = Some M /\ kget (p_data (pk_run B s1 h)) k = Some v).
  { induction Hh as [|o h Ho Hh IH]; intros s1 M1 K1 F1; [auto|]. cbn. apply IH; clear IH Hh.
    - destruct o; cbn in *; try contradiction; [rewrite (proj1 (get_effect B Hn k0 s1))|rewrite (proj1 (init_effect B Hn l s1))|]; exact M1.
    - destruct o; cbn in *; try contradiction.
      + rewrite (proj2 (proj2 (get_effect B Hn k0 s1)) k); [exact K1|unfold present; congruence|exact F1].
      + rewrite (proj2 (proj2 (init_effect B Hn l s1)) k); [exact K1|unfold present; congruence|exact F1].
      + rewrite kget_kset_ne by congruence. exact K1.
    - destruct o; cbn in *; try contradiction.
      + eapply family_grows; [exact (proj1 (proj2 (get_effect B Hn k0 s1)))|exact F1].
      + eapply family_grows; [exact (proj1 (proj2 (init_effect B Hn l s1)))|exact F1].
      + eapply family_grows; [|exact F1]. intros q Hq. cbn. rewrite kget_kset. destruct (key_eqb k0 q); [discriminate|exact Hq]. }
  destruct (G (pk_set B s k v)) as [G1 G2].
  - exact Hm.
  - cbn. apply kget_kset_eq.
  - unfold family_complete. destruct (rev k) as [|c up] eqn:E; [exact I|].
    assert (Ek : k = rev up ++ [c]) by (rewrite <- (rev_involutive k), E; reflexivity).
    intros c' Hc'. unfold present. cbn. rewrite kget_kset. destruct (key_eqb_spec k (rev up ++ [c'])) as [|Hne]; [discriminate|].
    apply (Hsib (rev up) c Ek c' Hc'). intros ->. congruence.
  - eapply pk_get_present; eassumption.
Qed.
End PP.

(** ** refutations and concrete instances *)
Definition exP := packet1 exW2 "zero" (-1)%Z.
Definition exP2 (sep : bool) := packet2 exW2 "zero" [-2; -1]%Z sep.
Definition ex_obj : packet exP := fst (pk_transform exP (pk_new exP tt) (exT [4]) (Some 2%Z)).

(** C30 fails in general: assign node a, read its sibling d for the first time, read a: the assigned value is
    gone *)
Theorem C30_assigned_persists_refuted :
  exists (s : packet exP) (M : Z) (k : key) (v : tensor ZK) (h : list (op (K := ZK))), p_max s = Some M /\ Forall (keeps k) h /\
    snd (pk_get exP (pk_set exP s k v) k) = Ok v /\ snd (pk_get exP (pk_run exP (pk_set exP s k v) h) k) <> Ok v.
Proof.
  exists ex_obj, 2%Z, (ks "a"), (mkT (K := ZK) f32 [2] [100; 100]%Z), [ORead (ks "d")].
  split; [reflexivity|]. split; [repeat constructor|]. split; [reflexivity|]. vm_compute. discriminate.
Qed.

(** C29 fails in general: all leaves assigned, inner node a present, inner node d absent; only the root
    value differs between the two objects, and so does the reconstruction *)
Definition ex_leaf (z : Z) : tensor ZK := mkT (K := ZK) f32 [1] [z].
Definition ex_assigned (x : tensor ZK) : packet exP :=
  pk_run exP (fst (pk_transform exP (pk_new exP tt) x (Some 2%Z)))
    [OAssign (ks "aa") (ex_leaf 1); OAssign (ks "ad") (ex_leaf 2); OAssign (ks "da") (ex_leaf 3); OAssign (ks "dd") (ex_leaf 4);
     OAssign (ks "a") (mkT (K := ZK) f32 [2] [0; 0]%Z)].
Theorem C29_only_leaves_refuted : exists x x' : tensor ZK, shp x = shp x' /\
  (forall k, k <> [] -> kget (p_data (ex_assigned x)) k = kget (p_data (ex_assigned x')) k) /\
  snd (pk_reconstruct exP (ex_assigned x)) = Ok tt /\ snd (pk_reconstruct exP (ex_assigned x')) = Ok tt /\
  kget (p_data (fst (pk_reconstruct exP (ex_assigned x)))) [] <> kget (p_data (fst (pk_reconstruct exP (ex_assigned x')))) [].
Proof.
  exists (exT [4]), (mkT (K := ZK) f32 [4] [0; 0; 0; 0]%Z). split; [reflexivity|]. split.
  - intros [|c k] Hk; [congruence|]. reflexivity.
  - split; [vm_compute; reflexivity|]. split; [vm_compute; reflexivity|]. vm_compute. discriminate.
Qed.

(** the hypotheses of C28 are met: an object of 5 samples, three levels, all leaves read *)
Definition ex_leaves3 : list key := product_rep ["a"; "d"]%char 3.
Example ex_C28_1d : match pk_init exP (fst (pk_transform exP (pk_new exP tt) (exT [2; 5]) (Some 3%Z))) ex_leaves3 with
  | (s2, Ok _) => match pk_reconstruct exP s2 with
      | (s3, Ok _) => match kget (p_data s3) [] with Some y => shp y = [2; 6] /\ get y [1; 4] = get (exT [2; 5]) [1; 4] /\ get (exT [2; 5]) [1; 4] = 6%Z | None => False end
      | _ => False end
  | _ => False end.
Proof. vm_compute. auto. Qed.
Example ex_C28_leaves : forall p, word ["a"; "d"]%char p -> List.length p = Z.to_nat 3 -> In p ex_leaves3.
Proof.
  intros p Hp Hl. destruct p as [|c1 [|c2 [|c3 [|]]]]; try discriminate Hl.
  pose proof (Forall_inv Hp) as H1. pose proof (Forall_inv (Forall_inv_tail Hp)) as H2. pose proof (Forall_inv (Forall_inv_tail (Forall_inv_tail Hp))) as H3.
  destruct H1 as [<-|[<-|[]]]; destruct H2 as [<-|[<-|[]]]; destruct H3 as [<-|[<-|[]]]; cbn; auto 10.
Qed.
Example ex_C28_2d sep : match pk_init (exP2 sep) (fst (pk_transform (exP2 sep) (pk_new (exP2 sep) tt) (exT [5; 4]) (Some 2%Z))) (natural_order2 2) with
  | (s2, Ok _) => match pk_reconstruct (exP2 sep) s2 with
      | (s3, Ok _) => match kget (p_data s3) [] with Some y => shp y = [6; 4] /\ get y [4; 3] = get (exT [5; 4]) [4; 3] | None => False end
      | _ => False end
  | _ => False end.
Proof. destruct sep; vm_compute; auto. Qed.
(** hypotheses of the C29 theorems *)
Example ex_C29_missing : let s := pk_run exP ex_obj [ORead (ks "a"); ORead (ks "aa")] in
  kget (p_data s) (ks "da") = None /\ snd (pk_reconstruct exP s) = Raise KeyError.
Proof. vm_compute. auto. Qed.
Example ex_C29_same : let s := pk_run exP ex_obj [OInit (product_rep ["a"; "d"]%char 2)] in
  let s' := pk_run exP s [OAssign (ks "d") (mkT (K := ZK) f32 [2] [7; 7]%Z)] in
  same_leaves (p_data s) (p_data s') ["a"; "d"]%char 2 /\ same_sizes (p_data s) (p_data s') ["a"; "d"]%char 2 /\
  kget (p_data s) (ks "d") <> kget (p_data s') (ks "d") /\ snd (pk_reconstruct exP s') = Ok tt.
Proof.
  cbv zeta. split; [|split; [|split; [vm_compute; discriminate|vm_compute; reflexivity]]].
  - intros p Hp Hl. destruct p as [|c1 [|c2 [|]]]; try discriminate Hl.
    pose proof (Forall_inv Hp) as H1. pose proof (Forall_inv (Forall_inv_tail Hp)) as H2.
    destruct H1 as [<-|[<-|[]]]; destruct H2 as [<-|[<-|[]]]; eexists; split; vm_compute; reflexivity.
  - intros p Hp Hl. destruct p as [|c1 [|]]; cbn in Hl; try lia. pose proof (Forall_inv Hp) as H1.
    destruct H1 as [<-|[<-|[]]]; eexists; eexists; (split; [vm_compute; reflexivity|]); (split; [vm_compute; reflexivity|]); reflexivity.
Qed.
(** hypotheses of C30: after d was read, an assignment to a survives further reads *)
Example ex_C30 : let s := pk_run exP ex_obj [ORead (ks "d")] in
  (forall p c, ks "a" = p ++ [c] -> forall c', In c' (be_letters exP) -> c' <> c -> kget (p_data s) (p ++ [c']) <> None).
Proof.
  cbv zeta. intros p c E c' Hc' Hne. destruct p as [|e [|]]; try discriminate. cbn in E. injection E as <-.
  destruct Hc' as [<-|[<-|[]]]; [congruence|]. vm_compute. discriminate.
Qed.
(** hypotheses of C26 *)
Example ex_C26 : match pk_get exP (pk_run exP ex_obj [ORead (ks "dd"); OInit [ks "aa"]]) (ks "ad") with (_, Ok v) => shp v = [1] | _ => False end.
Proof. vm_compute. reflexivity. Qed.
