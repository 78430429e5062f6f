(** Property theorems for WaveletPacket2D with mode="boundary": C54, C55. *)
From Coq Require Import List Arith ZArith Lia Bool String Ascii Ring.
From Coq Require Import ZifyNat ZifyBool.
From Verif Require Import Base Sums Tensor TensorFacts Util Perm Plumb Accept Spec Conv1 Conv2 PadFacts CoreFacts AnalysisInv Synthesis Filters Wave1 Wave1Inv Rec1 Spec2 WaveN RecN Sep SepFacts Lin Sparse SparseFacts SpecMat SpecMatN SparseMM LinAlg PropsOrth GramSchmidt Mat1 MatN MatOrth Boundary Boundary2 MatPre Mat1Facts Mat1Call Tags PropsMat1 MatNFacts MatNLoop MatNSep MatNNon MatNCall PropsMatN PropsMatN2 PropsMatNon PropsTagMat Packets SpecPk PacketFacts Orders PacketConv PropsPk PacketsM SpecPkM PkInv PropsPkRead PropsPkM.
Import ListNotations.
Ltac Zify.zify_post_hook ::= Z.div_mod_to_equations.
Local Arguments Nat.div : simpl never.
Local Arguments Nat.modulo : simpl never.

(** the axes argument is accepted: two different entries *)
Definition two_axes (axes : list Z) : Prop := ensure_axes (AxSeq axes) 2 = Ok axes.
Lemma two_axes_len axes : two_axes axes -> List.length axes = 2.
Proof. unfold two_axes, ensure_axes. destruct (Nat.eqb_spec (List.length axes) 2); [auto|discriminate]. Qed.
Lemma two_axes_ok axes r : List.length axes = 2 -> axes_ok r axes -> two_axes axes.
Proof. intros H1 H2. unfold two_axes, ensure_axes. rewrite H1. cbn [Nat.eqb]. rewrite (axes_ok_check _ _ H2). reflexivity. Qed.

Lemma min_two nax s : List.length nax = 2 -> Forall (fun n => 1 <= n) (gather nax 0 s) ->
  let q := Nat.min (nth (nth 0 nax 0) s 0) (nth (nth 1 nax 0) s 0) in 1 <= q /\ Forall (fun n => q <= n) (gather nax 0 s).
Proof.
  intros Hl Hn q. unfold q. destruct nax as [|a1 [|a2 [|]]]; try discriminate. cbn [gather map nth] in *. pose proof (Forall_inv Hn). pose proof (Forall_inv (Forall_inv_tail Hn)).
  cbn beta in *. revert H H0. generalize (nth a1 s 0) (nth a2 s 0). intros. split; [lia|]. constructor; [|constructor; [|constructor]]; lia.
Qed.
Section PM2.
Context {K : CRing}.
Implicit Types t u x : tensor K.
Variable LA : linalg K.
(** what fresh one-level objects compute *)
Definition one_level2 (w : wavelet K) (method : string) (axes : list Z) (sep : bool) t : result (list (tensor K)) :=
  let* _ := swap_axes axes t in
  let* o := new_mwavedecn 2 w (Some 1%Z) (AxSeq axes) method (Some "zero"%string) sep in
  let* c := snd (mw2_call LA o t) in four_of c.
Definition one_synth2 (w : wavelet K) (method : string) (axes : list Z) (sep : bool) (ch : list (tensor K)) : result (tensor K) :=
  match ch with
  | [a; h; v; dd] => let* _ := swap_axes axes a in let* r := new_mwaverecn 2 w (AxSeq axes) method sep in snd (mr2_call LA r [PT a; PTup [h; v; dd]])
  | _ => Raise ValueError
  end.
Definition bands2 (sep : bool) : list (list bool) := if sep then [bLH; bHL; bHH] else [bHL; bLH; bHH].

Section TwoG.
Variables (w : wavelet K) (L : nat) (method : string) (axes : list Z) (sep : bool) (g : tag).
Variables (dimok : list nat -> Prop) (lm ls : list nat -> list (smat K)) (M : list nat -> list nat -> list nat -> K).
Notation fr := (mkMWN w (Some 1%Z) axes method (Some "zero"%string) sep None [] [] false []).
Notation frr := (mkMRN w axes method sep [] None None false).
Hypothesis HL : 2 <= L.
Hypothesis Hax2 : List.length axes = 2.
Hypothesis Hnew : new_mwavedecn 2 w (Some 1%Z) (AxSeq axes) method (Some "zero"%string) sep = Ok fr.
Hypothesis Hnewr : new_mwaverecn 2 w (AxSeq axes) method sep = Ok frr.
Notation Pd o := (wn_good w method L sep dimok lm o (Some "zero"%string) axes 1%Z).
Notation Pr r := (rn_good w method L sep dimok ls r axes).
Hypothesis H_dec : forall o x, Pd o -> is_data g x -> snd (mw2_call LA o x) = snd (mw2_call LA fr x) /\ Pd (fst (mw2_call LA o x)).
Hypothesis H_rec : forall r cs, Pr r -> (forall t, In t (pc_tensors (mkPC false cs)) -> ttag t = g) -> snd (mr2_call LA r cs) = snd (mr2_call LA frr cs) /\ Pr (fst (mr2_call LA r cs)).
Hypothesis H_out : forall x o' c, is_data g x -> mw2_call LA fr x = (o', Ok c) -> is_dtype_supported (tdtype x) = true /\ axes_ok (rank x) axes /\
  let nax := map (norm_axis (rank x)) axes in c = bwn2_coeffs M Mzero nax (bands2 sep) (bwn_levels 1 L (gather nax 0 (shp x))) x.
Hypothesis H_pr : forall x o' c, is_data g x -> mw2_call LA fr x = (o', Ok c) -> List.length (pc_items c) = 2 ->
  snd (mr2_call LA frr (pc_items c)) = Ok (ext_even Mzero (map (norm_axis (rank x)) axes) x).
Hypothesis H_acc : forall x, is_data g x -> is_dtype_supported (tdtype x) = true -> axes_ok (rank x) axes -> let nax := map (norm_axis (rank x)) axes in
  bwn_levels 1 L (gather nax 0 (shp x)) = 1 -> batch_nonempty nax x -> exists o' c, mw2_call LA fr x = (o', Ok c).

Lemma fresh_good : Pd fr. Proof. split; [repeat split|]. split; [reflexivity|]. left. reflexivity. Qed.
Lemma freshr_good : Pr frr. Proof. split; [repeat split|]. left. reflexivity. Qed.
Definition Inv2 (b : be_st (packet2b LA w method axes sep)) : Prop := all_in (fun o => Pd o) (fst b) /\ all_in (fun r => Pr r) (snd b).
Lemma one_level2_eq t : one_level2 w method axes sep t = let* _ := swap_axes axes t in let* c := snd (mw2_call LA fr t) in four_of c.
Proof. unfold one_level2. rewrite Hnew. reflexivity. Qed.
Lemma dec2b_pure b t : Inv2 b -> is_data g t -> Inv2 (fst (be_dec (packet2b LA w method axes sep) b t)) /\ snd (be_dec (packet2b LA w method axes sep) b t) = one_level2 w method axes sep t.
Proof.
  intros [H1 H2] Hd. rewrite one_level2_eq. cbn [packet2b be_dec]. unfold dec2b. destruct (swap_axes axes t) as [n|e]; [|cbn [fst snd rbind]; split; [split; assumption|reflexivity]].
  destruct (cached_call_ok (fun o => Pd o) (is_data g) (new_mwavedecn 2 w (Some 1%Z) (AxSeq axes) method (Some "zero"%string) sep) (mw2_call LA) (fun x => snd (mw2_call LA fr x))) with (d := fst b) (n := last2 (shp n)) (x := t) as [G1 G2].
  - intros y _. rewrite Hnew. apply fresh_good.
  - intros o y Ho Hy. apply H_dec; assumption.
  - exact H1.
  - exact Hd.
  - destruct (cached_call _ _ (fst b) _ t) as [d' r]. cbn [fst snd] in *. split; [split; assumption|]. rewrite G1. reflexivity.
Qed.
Lemma rec2b_pure b ch : Inv2 b -> Forall (is_data g) ch -> Inv2 (fst (be_rec (packet2b LA w method axes sep) b ch)) /\ snd (be_rec (packet2b LA w method axes sep) b ch) = one_synth2 w method axes sep ch.
Proof.
  intros [H1 H2] Hch. cbn [packet2b be_rec]. unfold rec2b, one_synth2.
  destruct ch as [|a [|h [|v [|dd [|? ?]]]]]; try (cbn [fst snd]; split; [split; assumption|reflexivity]).
  destruct (swap_axes axes a) as [n|e]; [|cbn [fst snd rbind]; split; [split; assumption|reflexivity]]. rewrite Hnewr. cbn [rbind].
  destruct (cached_call_ok (fun r => Pr r) (fun cs => forall t, In t (pc_tensors (mkPC false cs)) -> ttag t = g) (Ok frr) (mr2_call LA) (fun cs => snd (mr2_call LA frr cs))) with (d := snd b) (n := last2 (shp n)) (x := [PT a; PTup [h; v; dd]]) as [G1 G2].
  - intros y _. apply freshr_good.
  - intros r cs Hr Hcs. apply H_rec; assumption.
  - exact H2.
  - intros t Ht. rewrite Forall_forall in Hch. apply Hch. exact Ht.
  - destruct (cached_call _ _ (snd b) _ _) as [d' r]. cbn [fst snd] in *. split; [split; assumption|]. exact G1.
Qed.
Notation letters := ["a"; "h"; "v"; "d"]%char.
Let step (nax : list nat) c t := bw_letter2 M nax sep c t.
Let NAX r := map (norm_axis r) axes.
Lemma letter2_data nax c t : is_data g t -> is_data g (step nax c t).
Proof. intros [Hw Hg]. unfold step, bw_letter2, bwn_band. split; [apply wf_make|exact Hg]. Qed.
Lemma letter2_shp nax c t : shp (step nax c t) = upds nax (map (fun n => even_up n / 2) (gather nax 0 (shp t))) (shp t).
Proof. reflexivity. Qed.
Lemma letter2_rank nax c t : rank (step nax c t) = rank t.
Proof. unfold rank. rewrite letter2_shp. apply upds_length. Qed.
Lemma one_level2_inv t ch : is_data g t -> one_level2 w method axes sep t = Ok ch ->
  is_dtype_supported (tdtype t) = true /\ axes_ok (rank t) axes /\ ch = map (fun c => step (NAX (rank t)) c t) letters /\
  exists o' c, mw2_call LA fr t = (o', Ok c) /\ List.length (pc_items c) = 2 /\ exists a h v dd, ch = [a; h; v; dd] /\ pc_items c = [PT a; PTup [h; v; dd]].
Proof.
  intros Hd H. rewrite one_level2_eq in H. apply rbind_ok in H as (n0 & Hs & H). apply rbind_ok in H as (c & Hc & H). apply swap_axes_inv in Hs.
  destruct (mw2_call LA fr t) as [o' rc] eqn:Ec. cbn [snd] in Hc. subst rc. destruct (H_out t o' c Hd Ec) as (Hdt & Hax & Hcc). cbv zeta in Hcc. fold (NAX (rank t)) in Hcc.
  split; [exact Hdt|]. split; [exact Hax|]. assert (E1 : bwn_levels 1 L (gather (NAX (rank t)) 0 (shp t)) = 1 \/ bwn_levels 1 L (gather (NAX (rank t)) 0 (shp t)) = 0) by (cbn [bwn_levels]; destruct (existsb _ _); auto).
  destruct E1 as [E1|E1]; rewrite E1 in Hcc; [|subst c; discriminate]. clear E1.
  assert (Hi : exists a h v dd, pc_items c = [PT a; PTup [h; v; dd]] /\ [a; h; v; dd] = map (fun c => step (NAX (rank t)) c t) letters).
  { subst c. unfold bwn2_coeffs. cbn [pc_items seq rev app map]. unfold bwn_approx. cbn [Nat.iter nat_rect]. unfold NAX at 2. rewrite map_length, Hax2.
    unfold step, bw_letter2, letter_band, bands2. destruct sep; do 4 eexists; split; reflexivity. }
  destruct Hi as (a & h & v & dd & E & E2). unfold four_of in H. rewrite E in H. injection H as <-. split; [exact E2|]. exists o', c. split; [reflexivity|]. rewrite E. split; [reflexivity|]. exists a, h, v, dd. auto.
Qed.
Lemma one_level2_ok t : is_data g t -> is_dtype_supported (tdtype t) = true -> axes_ok (rank t) axes -> Forall (fun n => L <= n) (gather (NAX (rank t)) 0 (shp t)) -> batch_nonempty (NAX (rank t)) t ->
  exists ch, one_level2 w method axes sep t = Ok ch.
Proof.
  intros Hd Hdt Hax Hn Hb. rewrite one_level2_eq, swap_axes_ok by exact Hax. cbn [rbind].
  assert (E : bwn_levels 1 L (gather (NAX (rank t)) 0 (shp t)) = 1).
  { cbn [bwn_levels]. destruct (existsb _ _) eqn:Ex; [|reflexivity]. exfalso. apply existsb_exists in Ex as (n & H1 & H2). rewrite Forall_forall in Hn. specialize (Hn n H1). apply Nat.ltb_lt in H2. lia. }
  destruct (H_acc t Hd Hdt Hax E Hb) as (o' & c & Ec). destruct (H_out t o' c Hd Ec) as (_ & _ & Hcc). cbv zeta in Hcc. fold (NAX (rank t)) in Hcc. rewrite E in Hcc. rewrite Ec. cbn [snd rbind]. subst c.
  unfold four_of, bwn2_coeffs, bands2. cbn [pc_items seq rev app map]. destruct sep; eexists; reflexivity.
Qed.
Lemma one_level2_pr t ch : is_data g t -> one_level2 w method axes sep t = Ok ch -> one_synth2 w method axes sep ch = Ok (ext_even Mzero (NAX (rank t)) t).
Proof.
  intros Hd H. destruct (one_level2_inv t ch Hd H) as (_ & Hax & Hch & o' & c & Ec & Hl & a & h & v & dd & -> & Hi).
  pose proof (H_pr t o' c Hd Ec Hl) as HP. rewrite Hi in HP. unfold one_synth2. cbn [map] in Hch. injection Hch as Ha _ _ _.
  rewrite swap_axes_ok, Hnewr; [exact HP|]. rewrite Ha, letter2_rank. exact Hax.
Qed.
Lemma one_synth2_data ch r : Forall (is_data g) ch -> one_synth2 w method axes sep ch = Ok r -> is_data g r.
Proof.
  intros Hch H. unfold one_synth2 in H. destruct ch as [|a [|h [|v [|dd [|? ?]]]]]; try discriminate. apply rbind_ok in H as (n & _ & H). rewrite Hnewr in H. cbn [rbind] in H. split.
  - eapply mr2_call_wf; exact H.
  - apply C52_MatrixWaverec2 in H. rewrite H. apply (Forall_inv Hch).
Qed.
Lemma crop2_data (r n r' : tensor K) : is_data g r -> crop2 axes r n = Ok r' -> is_data g r'.
Proof.
  intros [Hw Hg] H. unfold crop2 in H. apply rbind_ok in H as (a & Ha & H). apply rbind_ok in H as (b & _ & H). apply rbind_ok in H as (r1 & H1 & H). apply rbind_ok in H as (r2 & H2 & H).
  assert (Hc : forall (u u' : tensor K) i k, crop_one u i k = Ok u' -> ttag u' = ttag u).
  { intros u u' i k E. unfold crop_one in E. destruct (Nat.eqb _ _); [injection E as <-; reflexivity|]. destruct (Nat.eqb _ _); [|discriminate]. injection E as <-. reflexivity. }
  split.
  - unfold undo_swap_axes in H. apply rbind_ok in H as (? & _ & H). destruct (get_transpose_order _ _) as [fr bk]. eapply wf_permute; exact H.
  - apply tag_undo in H. apply tag_swap in Ha. rewrite H, (Hc _ _ _ _ H2), (Hc _ _ _ _ H1), Ha. exact Hg.
Qed.
Notation Bk := (packet2b LA w method axes sep).
Notation f := (one_level2 w method axes sep).
Lemma two_reads h0 x maxlevel s1 m h k : Forall (op_data (is_data g)) h0 -> is_data g x ->
  pk_transform Bk (pk_run Bk (pk_new Bk ([], [])) h0) x maxlevel = (s1, Ok tt) -> p_max s1 = Some m -> Forall read_op h ->
  snd (pk_get Bk (pk_run Bk s1 h) k) = packet_read f letters x m k.
Proof.
  intros Hh0 Hx Ht Hm Hh.
  apply (tree_reads Bk (is_data g) Inv2 f (one_synth2 w method axes sep) NAX step ([], [])) with (h0 := h0) (ml := maxlevel); auto.
  - apply nodup2.
  - split; constructor.
  - apply dec2b_pure.
  - apply rec2b_pure.
  - intros t ch Hd E. apply (one_level2_inv t ch Hd E).
  - intros. apply letter2_data; assumption.
  - apply one_synth2_data.
  - apply crop2_data.
Qed.
Lemma two_read h0 m (q : key) : Forall (op_data (is_data g)) h0 -> let s := pk_run Bk (pk_new Bk ([], [])) h0 in
  p_max s = Some m -> (exists r t : key, q = r ++ t /\ kget (p_data s) r <> None) -> (kget (p_data s) q <> None \/ (Z.of_nat (List.length q) <= m)%Z) ->
  let s' := fst (pk_get Bk s q) in
  p_max s' = Some m /\ read_as f letters (kget (p_data s)) (kget (p_data s')) q (snd (pk_get Bk s q)).
Proof.
  intros Hh0.
  apply (tree_read Bk (is_data g) Inv2 f (one_synth2 w method axes sep) NAX step ([], [])); auto.
  - apply nodup2.
  - split; constructor.
  - apply dec2b_pure.
  - apply rec2b_pure.
  - intros t ch Hd E. apply (one_level2_inv t ch Hd E).
  - intros. apply letter2_data; assumption.
  - apply one_synth2_data.
  - apply crop2_data.
Qed.
Lemma two_node x p v : is_data g x -> node_at f letters x p = Ok v -> v = packet_walk (bw_letter2 M (map (norm_axis (rank x)) axes) sep) p x.
Proof.
  intros Hx H. refine (tree_node Bk (is_data g) f NAX step _ _ _ x p v Hx H).
  - intros t ch Hd E. apply (one_level2_inv t ch Hd E).
  - intros. apply letter2_data; assumption.
  - apply letter2_rank.
Qed.
Let fit J t := is_dtype_supported (tdtype t) = true /\ axes_ok (rank t) axes /\ batch_nonempty (NAX (rank t)) t /\ (1 <= J -> Forall (fun n => (L - 1) * 2 ^ J <= n) (gather (NAX (rank t)) 0 (shp t))).
Lemma two_default h0 x h k : List.length (dec_lo w) = L -> Forall (op_data (is_data g)) h0 -> is_data g x -> is_dtype_supported (tdtype x) = true -> axes_ok (rank x) axes ->
  let nax := map (norm_axis (rank x)) axes in batch_nonempty nax x -> Forall (fun n => 1 <= n) (gather nax 0 (shp x)) ->
  exists s1 J, J = default_level L (Nat.min (nth (nth 0 nax 0) (shp x) 0) (nth (nth 1 nax 0) (shp x) 0)) /\
    pk_transform Bk (pk_run Bk (pk_new Bk ([], [])) h0) x None = (s1, Ok tt) /\ p_max s1 = Some (Z.of_nat J) /\
    (Forall read_op h -> word letters k -> List.length k <= J ->
     snd (pk_get Bk (pk_run Bk s1 h) k) = Ok (packet_walk (bw_letter2 M nax sep) k x)).
Proof.
  intros Hdl Hh0 Hx Hd Hax nax Hb Hn. set (s0 := pk_run Bk (pk_new Bk ([], [])) h0).
  pose proof (good_axes_ok _ _ Hax) as Hg. fold nax in Hg.
  assert (Hln : List.length nax = 2) by (unfold nax; rewrite map_length; exact Hax2).
  assert (Hsz : exists F, shp (permute_nat x (perm_of nax (rank x))) = F ++ [nth (nth 0 nax 0) (shp x) 0; nth (nth 1 nax 0) (shp x) 0]).
  { exists (fsz nax (shp x)). destruct nax as [|a1 [|a2 [|]]]; try discriminate. unfold perm_of. cbn [permute_nat shp tmake]. unfold gather. rewrite map_app. reflexivity. }
  destruct Hsz as [F Hsz]. set (n1 := nth (nth 0 nax 0) (shp x) 0) in *. set (n2 := nth (nth 1 nax 0) (shp x) 0) in *.
  set (J := default_level L (Nat.min n1 n2)).
  assert (Ht : pk_transform Bk s0 x None = (mkP [([], x)] (Some (Z.of_nat J)) (p_be s0), Ok tt)).
  { unfold pk_transform. cbn [packet2b be_maxlevel]. rewrite swap_axes_ok by exact Hax. cbn [rbind]. fold nax. set (T := permute_nat x (perm_of nax (rank x))) in *.
    assert (ED : forall i, dim_last T i = nth (List.length F + 2 - i) (F ++ [n1; n2]) 0) by (intros i; unfold dim_last, rank; rewrite Hsz, app_length; reflexivity).
    rewrite !ED. rewrite !app_nth2 by lia. replace (List.length F + 2 - 2 - List.length F) with 0 by lia. replace (List.length F + 2 - 1 - List.length F) with 1 by lia. cbn [nth].
    unfold get_len. rewrite Hdl, dwt_max_level_val by exact HL. reflexivity. }
  eexists. exists J. split; [reflexivity|]. split; [exact Ht|]. split; [reflexivity|]. intros Hh Hk Hl.
  rewrite (two_reads h0 x None _ (Z.of_nat J) h k Hh0 Hx Ht eq_refl Hh). unfold packet_read. destruct k as [|c k]; [reflexivity|]. rewrite (proj2 (Z.leb_le _ _)) by lia.
  refine (proj1 (tree_exists Bk (is_data g) f NAX step _ _ _ fit _ _ x (c :: k) J Hx _ Hk Hl)).
  - intros t ch Hdt E. apply (one_level2_inv t ch Hdt E).
  - intros. apply letter2_data; assumption.
  - apply letter2_rank.
  - intros J' t Hdt (F1 & F2 & F3 & F4). apply one_level2_ok; auto. specialize (F4 ltac:(lia)). revert F4. apply Forall_impl. intros n H. apply (half_bound L n J' HL H).
  - intros J' c' t Hdt (F1 & F2 & F3 & F4). specialize (F4 ltac:(lia)). pose proof (good_axes_ok _ _ F2) as Hga. fold (NAX (rank t)) in Hga. unfold fit. rewrite letter2_rank, letter2_shp.
    split; [exact F1|]. split; [exact F2|]. split.
    + intros d Hd1 Hd2. rewrite letter2_shp in Hd1 |- *. rewrite upds_length in Hd1. rewrite nth_upds_notin by exact Hd2. apply F3; assumption.
    + intros _. rewrite gather_upds; [|apply Hga|rewrite map_length; unfold gather; apply map_length|intros d Hd'; apply Hga, Hd'].
      rewrite Forall_map. revert F4. apply Forall_impl. intros n H. apply (half_bound L n J' HL H).
  - unfold fit. split; [exact Hd|]. split; [exact Hax|]. split; [exact Hb|]. intros HJ. fold nax. unfold NAX. fold nax. 
    destruct (min_two nax (shp x) Hln Hn) as [P1 P2]. revert P2. apply Forall_impl. intros n P2. eapply Nat.le_trans; [|exact P2]. apply default_bound; [exact HL|exact P1|exact HJ|apply le_n].
Qed.
Lemma two_rec h0 x maxlevel s1 m h s2 : Forall (op_data (is_data g)) h0 -> is_data g x ->
  pk_transform Bk (pk_run Bk (pk_new Bk ([], [])) h0) x maxlevel = (s1, Ok tt) -> p_max s1 = Some m -> (1 <= m)%Z ->
  Forall read_op h -> pk_run Bk s1 h = s2 ->
  (forall p, word letters p -> List.length p = Z.to_nat m -> kget (p_data s2) p <> None) ->
  exists s3 y, pk_reconstruct Bk s2 = (s3, Ok tt) /\ kget (p_data s3) [] = Some y /\
    agrees_on x y /\ let nax := map (norm_axis (rank x)) axes in shp y = upds nax (map even_up (gather nax 0 (shp x))) (shp x).
Proof.
  intros Hh0 Hx Ht HMx H1 Hh <- Hleaf.
  apply (tree_rec Bk (is_data g) Inv2 f (one_synth2 w method axes sep) NAX step ([], [])) with (h0 := h0) (ml := maxlevel) (M := m); auto.
  - apply nodup2.
  - discriminate.
  - apply order_ok2.
  - split; constructor.
  - intros t Hd. apply Hd.
  - apply dec2b_pure.
  - apply rec2b_pure.
  - intros t ch Hd E. apply (one_level2_inv t ch Hd E).
  - intros. apply letter2_data; assumption.
  - apply one_level2_pr.
  - intros t ch Hd E. destruct (one_level2_inv t ch Hd E) as (_ & Hax & _). apply crop2_ok; [apply Hd|exact Hax2|exact Hax].
  - intros t ch Hd E. destruct (one_level2_inv t ch Hd E) as (_ & Hax & _). apply good_axes_ok, Hax.
  - apply one_synth2_data.
  - apply crop2_data.
Qed.
Lemma two_missing h0 x maxlevel s1 m h p : Forall (op_data (is_data g)) h0 -> is_data g x ->
  pk_transform Bk (pk_run Bk (pk_new Bk ([], [])) h0) x maxlevel = (s1, Ok tt) -> p_max s1 = Some m ->
  Forall read_op h -> word letters p -> List.length p = Z.to_nat m -> p <> [] -> kget (p_data (pk_run Bk s1 h)) p = None ->
  snd (pk_reconstruct Bk (pk_run Bk s1 h)) = Raise KeyError.
Proof.
  intros Hh0 Hx Ht HMx Hh Hp Hl Hne Hk.
  apply (tree_missing Bk (is_data g) Inv2 f (one_synth2 w method axes sep) NAX step ([], [])) with (h0 := h0) (x := x) (ml := maxlevel) (M := m) (p := p); auto.
  - apply nodup2.
  - discriminate.
  - apply order_ok2.
  - split; constructor.
  - apply dec2b_pure.
  - apply rec2b_pure.
  - intros t ch Hd E. apply (one_level2_inv t ch Hd E).
  - intros. apply letter2_data; assumption.
  - apply one_level2_pr.
  - intros t ch Hd E. destruct (one_level2_inv t ch Hd E) as (_ & Hax & _). apply crop2_ok; [apply Hd|exact Hax2|exact Hax].
  - apply one_synth2_data.
  - apply crop2_data.
Qed.
End TwoG.

Hypothesis HD : domain K.
Hypothesis HR : formally_real K.
Section Bank.
Variables (w : wavelet K) (L : nat) (method : string) (axes : list Z) (sep : bool) (g : tag).
Hypothesis HLA : la_ok LA method.
Hypothesis B : orthogonal_bank L (dec_lo w) (dec_hi w) (rec_lo w) (rec_hi w).
Hypothesis HI : boundary_independent L (dec_lo w) (dec_hi w).
Hypothesis Hta : two_axes axes.
Let HL := ob_two _ _ _ _ _ B.
Let Hdl := ob_len_lo _ _ _ _ _ B.
Let Hrl := bank_rl w L B.
Let Htr g n := boundary_s_transpose LA g w n L method B.
Let HA g := bank_mats LA HD HR g w L method HLA B HI.
Let Hsup : orth_supported method = true := la_ok_sup LA method HLA.
Let Hl2 := two_axes_len axes Hta.
Notation fr := (mkMWN w (Some 1%Z) axes method (Some "zero"%string) sep None [] [] false []).
Notation frr := (mkMRN w axes method sep [] None None false).
Definition dimB : list nat -> Prop := if sep then anyd else twod.
Definition lmB : list nat -> list (smat K) := if sep then lmS LA w method g else lmN (A2 LA w method g).
Definition lsB : list nat -> list (smat K) := if sep then (fun s => map sp_t (lmS LA w method g s)) else lsN (S2 LA w method g).
Definition MB : list nat -> list nat -> list nat -> K := if sep then tprod (Bm LA w method g) else Mi (A2 LA w method g).
Lemma B_new : new_mwavedecn 2 w (Some 1%Z) (AxSeq axes) method (Some "zero"%string) sep = Ok fr.
Proof. unfold new_mwavedecn. rewrite Hta. cbn [rbind]. rewrite Hsup. cbn [negb]. rewrite Hrl, Hdl, Nat.eqb_refl. reflexivity. Qed.
Lemma B_newr : new_mwaverecn 2 w (AxSeq axes) method sep = Ok frr.
Proof. unfold new_mwaverecn. rewrite Hta. cbn [rbind]. rewrite Hsup. cbn [negb]. rewrite Hrl, Hdl, Nat.eqb_refl. reflexivity. Qed.
Lemma B_dec (o : mwavedecn K) x : wn_good w method L sep dimB lmB o (Some "zero"%string) axes 1%Z -> is_data g x ->
  snd (mw2_call LA o x) = snd (mw2_call LA fr x) /\ wn_good w method L sep dimB lmB (fst (mw2_call LA o x)) (Some "zero"%string) axes 1%Z.
Proof.
  unfold dimB, lmB. intros Ho [Hw Hg]. destruct sep.
  - apply (mw2_same LA w method L g true anyd anyd_map (lmS LA w method g) (fun s => map sp_t (lmS LA w method g s))); auto.
    + intros s _. apply (lmS_a LA w method L g (HA g) s).
    + intros s _. apply (lmS_s LA w method L g (HA g) (Htr g) s).
    + intros; exact I.
  - apply (mw2_same LA w method L g false twod twod_map (lmN (A2 LA w method g)) (lsN (S2 LA w method g))); auto.
    + apply (non_lm LA HD HR w L method HLA B HI).
    + apply (non_ls LA HD HR w L method HLA B HI).
    + apply (pre_twod LA HD HR w L method HLA B HI axes x Hw Hl2).
Qed.
Lemma B_rec (r : mwaverecn K) cs : rn_good w method L sep dimB lsB r axes -> (forall t, In t (pc_tensors (mkPC false cs)) -> ttag t = g) ->
  snd (mr2_call LA r cs) = snd (mr2_call LA frr cs) /\ rn_good w method L sep dimB lsB (fst (mr2_call LA r cs)) axes.
Proof.
  unfold dimB, lsB. intros Hr Hcs. destruct sep.
  - apply (mr2_same LA w method L g true anyd anyd_map); auto.
    + intros s _. apply (lmS_s LA w method L g (HA g) (Htr g) s).
    + intros; exact I.
  - apply (mr2_same LA w method L g false twod twod_map); auto.
    + apply (non_ls LA HD HR w L method HLA B HI).
    + intros hs H. apply twod_map, H.
Qed.
Lemma B_out x (o' : mwavedecn K) c : is_data g x -> mw2_call LA fr x = (o', Ok c) -> is_dtype_supported (tdtype x) = true /\ axes_ok (rank x) axes /\
  let nax := map (norm_axis (rank x)) axes in c = bwn2_coeffs MB Mzero nax (bands2 sep) (bwn_levels 1 L (gather nax 0 (shp x))) x.
Proof.
  unfold MB, bands2. intros [Hw Hg] Hc. destruct sep.
  - destruct (mw2_call_inv LA (mkMWN w (Some 1%Z) axes method (Some "zero"%string) true None [] [] false []) o' axes x c Hw eq_refl Hl2 Hc) as (Hdt & Hax & lev & Hlev). cbn [wn_wav wn_level] in Hlev. split; [exact Hdt|]. split; [exact Hax|]. cbv zeta.
    set (nax := map (norm_axis (rank x)) axes) in *. set (s := gather nax 0 (shp x)) in *. assert (E1 : lev = 1%Z) by (unfold wn_lev in Hlev; cbn in Hlev; injection Hlev as <-; reflexivity). subst lev.
    assert (Hb : 0 < bwn_levels (Z.to_nat 1) L s -> 0 < prodl (fsz nax (shp x))).
    { intros HJ. destruct (Nat.eq_dec (prodl (fsz nax (shp x))) 0) as [E0|E0]; [|lia]. destruct (sep_empty LA HD HR w L method Mzero HLA B HI (Some 1%Z) axes x 1%Z Hw Hdt Hl2 Hax Hlev HJ E0) as (o2 & e & E). cbn [mode_name] in E. congruence. }
    destruct (sep_call LA HD HR w L method Mzero HLA B HI (Some 1%Z) axes x 1%Z Hw Hdt Hl2 Hax Hlev Hb) as [o2 E]. fold nax s in E. cbn [mode_name] in E. rewrite E in Hc. apply (f_equal snd) in Hc. cbn [snd] in Hc. apply ok_injM in Hc. subst c. rewrite Hg. reflexivity.
  - destruct (non_outcome LA HD HR w L method HLA B HI Mzero (Some 1%Z) axes x o' c Hw Hl2 Hc) as (Hdt & Hax & lev & Hlev & _ & ->). split; [exact Hdt|]. split; [exact Hax|].
    assert (E1 : lev = 1%Z) by (unfold wn_lev in Hlev; cbn in Hlev; injection Hlev as <-; reflexivity). subst lev. rewrite Hg. reflexivity.
Qed.
Lemma B_pr x (o' : mwavedecn K) c : is_data g x -> mw2_call LA fr x = (o', Ok c) -> List.length (pc_items c) = 2 ->
  snd (mr2_call LA frr (pc_items c)) = Ok (ext_even Mzero (map (norm_axis (rank x)) axes) x).
Proof.
  intros [Hw Hg] Hc Hlen. pose proof B_new as N1. pose proof B_newr as N2. destruct sep.
  - rewrite (C43_reconstruction LA HD HR w L method Mzero HLA B HI (Some 1%Z) axes _ x o' c _ Hw N1 Hc N2); [rewrite Hlen; reflexivity|]. rewrite Hlen. discriminate.
  - apply (C43_nonseparable_reconstruction LA HD HR w L method HLA B HI Mzero (Some 1%Z) axes _ x o' c _ Hw N1 Hc N2).
Qed.
Lemma B_acc x : is_data g x -> is_dtype_supported (tdtype x) = true -> axes_ok (rank x) axes -> let nax := map (norm_axis (rank x)) axes in
  bwn_levels 1 L (gather nax 0 (shp x)) = 1 -> batch_nonempty nax x -> exists o' c, mw2_call LA fr x = (o', Ok c).
Proof.
  intros [Hw Hg] Hdt Hax nax HJ Hb. apply fsz_pos in Hb. assert (Hlev : wn_lev w (Some 1%Z) (gather nax 0 (shp x)) = Ok 1%Z) by reflexivity. destruct sep.
  - destruct (sep_call LA HD HR w L method Mzero HLA B HI (Some 1%Z) axes x 1%Z Hw Hdt Hl2 Hax Hlev (fun _ => Hb)) as [o2 E]. eauto.
  - destruct (non_call LA HD HR w L method HLA B HI Mzero (Some 1%Z) axes x 1%Z Hw Hdt Hl2 Hax Hlev) as [o2 E]; [|eauto]. split; [|exact Hb]. change (Z.to_nat 1) with 1. fold nax. rewrite HJ. lia.
Qed.

Notation Bk := (packet2b LA w method axes sep).
Notation letters := ["a"; "h"; "v"; "d"]%char.
(** C54: reads after transform(x) *)
Theorem C54_reads_2d h0 x maxlevel s1 m h k :
  Forall (op_data (is_data g)) h0 -> wf x -> ttag x = g ->
  pk_transform Bk (pk_run Bk (pk_new Bk ([], [])) h0) x maxlevel = (s1, Ok tt) -> p_max s1 = Some m -> Forall read_op h ->
  snd (pk_get Bk (pk_run Bk s1 h) k) = packet_read (one_level2 w method axes sep) letters x m k.
Proof.
  intros Hh0 Hw Hg Ht Hm Hh.
  eapply (two_reads w L method axes sep g) with (dimok := dimB) (lm := lmB) (ls := lsB) (M := MB); first [exact HL|exact Hl2|exact Hdl|exact B_new|exact B_newr|exact B_dec|exact B_rec|exact B_out|exact B_pr|exact B_acc|eassumption|idtac]; try (split; assumption).
Qed.
(** C77: a read of an object with any history of data of one dtype and device *)
Theorem C77_read_boundary_2d h0 m (q : key) : Forall (op_data (is_data g)) h0 -> let s := pk_run Bk (pk_new Bk ([], [])) h0 in
  p_max s = Some m -> (exists r t : key, q = r ++ t /\ kget (p_data s) r <> None) -> (kget (p_data s) q <> None \/ (Z.of_nat (List.length q) <= m)%Z) ->
  let s' := fst (pk_get Bk s q) in
  p_max s' = Some m /\ read_as (one_level2 w method axes sep) letters (kget (p_data s)) (kget (p_data s')) q (snd (pk_get Bk s q)).
Proof.
  intros Hh0 s Hm Hex Hl.
  eapply (two_read w L method axes sep g) with (dimok := dimB) (lm := lmB) (ls := lsB) (M := MB); first [exact HL|exact Hl2|exact Hdl|exact B_new|exact B_newr|exact B_dec|exact B_rec|exact B_out|exact B_pr|exact B_acc|eassumption|idtac]; try (split; assumption).
Qed.
Theorem C55_reconstruct_2d h0 x maxlevel s1 m h s2 :
  Forall (op_data (is_data g)) h0 -> wf x -> ttag x = g ->
  pk_transform Bk (pk_run Bk (pk_new Bk ([], [])) h0) x maxlevel = (s1, Ok tt) -> p_max s1 = Some m -> (1 <= m)%Z ->
  Forall read_op h -> pk_run Bk s1 h = s2 ->
  (forall p, word letters p -> List.length p = Z.to_nat m -> kget (p_data s2) p <> None) ->
  exists s3 y, pk_reconstruct Bk s2 = (s3, Ok tt) /\ kget (p_data s3) [] = Some y /\
    agrees_on x y /\ let nax := map (norm_axis (rank x)) axes in shp y = upds nax (map even_up (gather nax 0 (shp x))) (shp x).
Proof.
  intros Hh0 Hw Hg Ht Hm H1 Hh Hr Hleaf.
  eapply (two_rec w L method axes sep g) with (dimok := dimB) (lm := lmB) (ls := lsB) (M := MB); first [exact HL|exact Hl2|exact Hdl|exact B_new|exact B_newr|exact B_dec|exact B_rec|exact B_out|exact B_pr|exact B_acc|eassumption|idtac]; try (split; assumption).
Qed.
Theorem C55_missing_leaf_2d h0 x maxlevel s1 m h p :
  Forall (op_data (is_data g)) h0 -> wf x -> ttag x = g ->
  pk_transform Bk (pk_run Bk (pk_new Bk ([], [])) h0) x maxlevel = (s1, Ok tt) -> p_max s1 = Some m ->
  Forall read_op h -> word letters p -> List.length p = Z.to_nat m -> p <> [] -> kget (p_data (pk_run Bk s1 h)) p = None ->
  snd (pk_reconstruct Bk (pk_run Bk s1 h)) = Raise KeyError.
Proof.
  intros Hh0 Hw Hg Ht Hm Hh Hp Hlp Hne Hk.
  eapply (two_missing w L method axes sep g) with (dimok := dimB) (lm := lmB) (ls := lsB) (M := MB); first [exact HL|exact Hl2|exact Hdl|exact B_new|exact B_newr|exact B_dec|exact B_rec|exact B_out|exact B_pr|exact B_acc|eassumption|idtac]; try (split; assumption).
Qed.
(** the value of a node and the default level, whatever [sep] *)
Lemma node_2d x p v : wf x -> ttag x = g -> node_at (one_level2 w method axes sep) letters x p = Ok v ->
  v = packet_walk (bw_letter2 MB (map (norm_axis (rank x)) axes) sep) p x.
Proof.
  intros Hw Hg Hn. eapply (two_node w L method axes sep g) with (dimok := dimB) (lm := lmB) (ls := lsB) (M := MB); first [exact HL|exact Hl2|exact Hdl|exact B_new|exact B_newr|exact B_dec|exact B_rec|exact B_out|exact B_pr|exact B_acc|eassumption|idtac]; try (split; assumption).
Qed.
Lemma level2_at t : is_data g t -> is_dtype_supported (tdtype t) = true -> axes_ok (rank t) axes ->
  let nax := map (norm_axis (rank t)) axes in Forall (fun n => L <= n) (gather nax 0 (shp t)) -> batch_nonempty nax t ->
  one_level2 w method axes sep t = Ok (map (fun c => bw_letter2 MB nax sep c t) letters).
Proof.
  intros Hd Hs Hax nax Hn Hb. assert (H : exists ch, one_level2 w method axes sep t = Ok ch).
  { eapply (one_level2_ok w L method axes sep g) with (dimok := dimB) (lm := lmB) (ls := lsB) (M := MB); first [exact HL|exact Hl2|exact Hdl|exact B_new|exact B_newr|exact B_dec|exact B_rec|exact B_out|exact B_pr|exact B_acc|eassumption|idtac]. }
  destruct H as [ch Hch]. rewrite Hch. f_equal.
  eapply (one_level2_inv w L method axes sep g) with (dimok := dimB) (lm := lmB) (ls := lsB) (M := MB) in Hch; first [exact HL|exact Hl2|exact Hdl|exact B_new|exact B_newr|exact B_dec|exact B_rec|exact B_out|exact B_pr|exact B_acc|eassumption|idtac].
  destruct Hch as (_ & _ & E & _). exact E.
Qed.
Lemma default_2d h0 x h k : Forall (op_data (is_data g)) h0 -> wf x -> ttag x = g -> float_tensor x -> axes_ok (rank x) axes ->
  let nax := map (norm_axis (rank x)) axes in batch_nonempty nax x -> Forall (fun n => 1 <= n) (gather nax 0 (shp x)) ->
  exists s1 J, J = default_level L (Nat.min (nth (nth 0 nax 0) (shp x) 0) (nth (nth 1 nax 0) (shp x) 0)) /\
    pk_transform Bk (pk_run Bk (pk_new Bk ([], [])) h0) x None = (s1, Ok tt) /\ p_max s1 = Some (Z.of_nat J) /\
    (Forall read_op h -> word letters k -> List.length k <= J ->
     snd (pk_get Bk (pk_run Bk s1 h) k) = Ok (packet_walk (bw_letter2 MB nax sep) k x)).
Proof.
  intros Hh0 Hw Hg Hf Hax nax Hb Hn. eapply (two_default w L method axes sep g) with (dimok := dimB) (lm := lmB) (ls := lsB) (M := MB); first [exact HL|exact Hl2|exact Hdl|exact B_new|exact B_newr|exact B_dec|exact B_rec|exact B_out|exact B_pr|exact B_acc|eassumption|idtac]; try (split; assumption). apply is_float, Hf.
Qed.
(** the round trip at the default depth never fails *)
Theorem C55_round_trip_2d h0 x h leaves :
  Forall (op_data (is_data g)) h0 -> wf x -> ttag x = g -> float_tensor x -> axes_ok (rank x) axes ->
  let nax := map (norm_axis (rank x)) axes in let J := default_level L (Nat.min (nth (nth 0 nax 0) (shp x) 0) (nth (nth 1 nax 0) (shp x) 0)) in
  batch_nonempty nax x -> Forall (fun n => 1 <= n) (gather nax 0 (shp x)) -> 1 <= J -> Forall read_op h ->
  (forall p, word letters p -> List.length p = J -> In p leaves) -> Forall (fun p => word letters p /\ List.length p <= J) leaves ->
  exists s1 s2 s3 y, pk_transform Bk (pk_run Bk (pk_new Bk ([], [])) h0) x None = (s1, Ok tt) /\ pk_init Bk (pk_run Bk s1 h) leaves = (s2, Ok tt) /\ pk_reconstruct Bk s2 = (s3, Ok tt) /\
    kget (p_data s3) [] = Some y /\ agrees_on x y /\ shp y = upds nax (map even_up (gather nax 0 (shp x))) (shp x).
Proof.
  intros Hh0 Hw Hg Hf Hax nax J Hb Hn HJ Hh Hl Hlv.
  destruct (default_2d h0 x [] [] Hh0 Hw Hg Hf Hax Hb Hn) as (s1 & J' & EJ & Ht & HMx & _). fold nax in EJ. fold J in EJ. subst J'.
  assert (Hr : forall h, Forall read_op h -> forall k, In k leaves -> exists v, snd (pk_get Bk (pk_run Bk s1 h) k) = Ok v).
  { intros h' Hh' k Hk. rewrite Forall_forall in Hlv. destruct (Hlv k Hk) as [W1 W2]. destruct (default_2d h0 x h' k Hh0 Hw Hg Hf Hax Hb Hn) as (s1' & J' & EJ & Ht' & _ & HR'). fold nax in EJ. fold J in EJ. subst J'.
    rewrite Ht in Ht'. apply (f_equal fst) in Ht'. cbn [fst] in Ht'. subst s1'. eexists. apply HR'; assumption. }
  destruct (init_readable Bk s1 leaves Hr h Hh) as [s2 Hi].
  destruct (C55_reconstruct_2d h0 x None s1 (Z.of_nat J) (h ++ [OInit leaves]) s2 Hh0 Hw Hg Ht HMx) as (s3 & y & R).
  - lia.
  - apply Forall_app. split; [exact Hh|repeat constructor].
  - unfold pk_run. rewrite fold_left_app. exact (f_equal fst Hi).
  - intros p Hp Hlp. apply (init_present Bk leaves _ _ nodup2 Hi). apply Hl; [exact Hp|]. rewrite Nat2Z.id in Hlp. exact Hlp.
  - exists s1, s2, s3, y. split; [exact Ht|]. split; [exact Hi|exact R].
Qed.
(** C56: what was done with the object before does not matter, as long as it was done with one dtype and device *)
Theorem C56_reuse_2d_partial h0 x maxlevel h k : Forall (op_data (is_data g)) h0 -> wf x -> ttag x = g -> Forall read_op h ->
  let used := pk_transform Bk (pk_run Bk (pk_new Bk ([], [])) h0) x maxlevel in let fresh := pk_transform Bk (pk_new Bk ([], [])) x maxlevel in
  snd used = snd fresh /\ (snd fresh = Ok tt -> snd (pk_get Bk (pk_run Bk (fst used) h) k) = snd (pk_get Bk (pk_run Bk (fst fresh) h) k)).
Proof.
  intros Hh0 Hw Hg Hh used fresh. assert (E : snd used = snd fresh /\ (snd fresh = Ok tt -> p_max (fst used) = p_max (fst fresh))).
  { unfold used, fresh, pk_transform. destruct maxlevel as [m|]; [auto|]. destruct (be_maxlevel Bk x); [auto|split; [reflexivity|discriminate]]. }
  destruct E as [E1 E2]. split; [exact E1|]. intros Hok. specialize (E2 Hok).
  assert (Hm : exists m, p_max (fst fresh) = Some m).
  { unfold fresh, pk_transform in Hok |- *. destruct maxlevel as [m|]; [eexists; reflexivity|]. destruct (be_maxlevel Bk x); [eexists; reflexivity|discriminate]. }
  destruct Hm as [m Hm].
  rewrite (C54_reads_2d h0 x maxlevel (fst used) m h k Hh0 Hw Hg); [|unfold used in *; destruct (pk_transform Bk (pk_run Bk (pk_new Bk ([], [])) h0) x maxlevel); cbn [fst snd] in *; congruence|congruence|exact Hh].
  rewrite (C54_reads_2d [] x maxlevel (fst fresh) m h k); [reflexivity|constructor|exact Hw|exact Hg| |exact Hm|exact Hh].
  cbn [pk_run fold_left]. unfold fresh in *. destruct (pk_transform Bk (pk_new Bk ([], [])) x maxlevel). cbn [fst snd] in *. congruence.
Qed.
End Bank.

Section Final.
Variables (w : wavelet K) (L : nat) (method : string) (axes : list Z) (g : tag).
Hypothesis HLA : la_ok LA method.
Hypothesis B : orthogonal_bank L (dec_lo w) (dec_hi w) (rec_lo w) (rec_hi w).
Hypothesis HI : boundary_independent L (dec_lo w) (dec_hi w).
Hypothesis Hta : two_axes axes.
Let HA g := bank_mats LA HD HR g w L method HLA B HI.
Notation letters := ["a"; "h"; "v"; "d"]%char.
(** the matrices of the separable variant: one per axis, applied as a tensor product *)
Definition axis_matrices (A : nat -> smat K) : Prop :=
  forall k, L <= k -> k mod 2 = 0 -> construct_boundary_a LA g w k method = Ok (A k) /\ orthogonal k (mget (A k)).
(** the matrices of the other variant act on whole images *)
Definition image_matrices (A : nat -> nat -> smat K) : Prop :=
  forall h v, L <= h -> L <= v -> h mod 2 = 0 -> v mod 2 = 0 -> construct_boundary_a2 LA g w h v method = Ok (A h v) /\ orthogonal (v * h) (mget (A h v)).
Lemma Am_matrices : axis_matrices (Am LA w method g).
Proof. intros k H1 H2. destruct (Am_ok LA w method L g (HA g) k H1 H2) as (H3 & _ & _ & _ & _ & H4). auto. Qed.
Lemma A2_matrices : image_matrices (A2 LA w method g).
Proof. intros h v H1 H2 E1 E2. destruct (A2_ok LA HD HR w L method HLA B HI g h v H1 H2 E1 E2) as (P1 & _ & _ & _ & _ & P2 & _). auto. Qed.
Theorem C54_node_separable x p v : wf x -> ttag x = g -> node_at (one_level2 w method axes true) letters x p = Ok v ->
  exists A, axis_matrices A /\ v = packet_walk (bw_letter2 (tprod (fun k => mget (A k))) (map (norm_axis (rank x)) axes) true) p x.
Proof. intros Hw Hg H. exists (Am LA w method g). split; [apply Am_matrices|]. apply (node_2d w L method axes true g HLA B HI Hta x p v Hw Hg H). Qed.
Theorem C54_node_nonseparable x p v : wf x -> ttag x = g -> node_at (one_level2 w method axes false) letters x p = Ok v ->
  exists A, image_matrices A /\ v = packet_walk (bw_letter2 (image_matrix (fun h v => mget (A h v))) (map (norm_axis (rank x)) axes) false) p x.
Proof. intros Hw Hg H. exists (A2 LA w method g). split; [apply A2_matrices|]. apply (node_2d w L method axes false g HLA B HI Hta x p v Hw Hg H). Qed.
Theorem C54_default_level_separable h0 x h k (Bk := packet2b LA w method axes true) :
  Forall (op_data (is_data g)) h0 -> wf x -> ttag x = g -> float_tensor x -> axes_ok (rank x) axes ->
  let nax := map (norm_axis (rank x)) axes in batch_nonempty nax x -> Forall (fun n => 1 <= n) (gather nax 0 (shp x)) ->
  exists s1 J A, axis_matrices A /\ J = default_level L (Nat.min (nth (nth 0 nax 0) (shp x) 0) (nth (nth 1 nax 0) (shp x) 0)) /\
    pk_transform Bk (pk_run Bk (pk_new Bk ([], [])) h0) x None = (s1, Ok tt) /\ p_max s1 = Some (Z.of_nat J) /\
    (Forall read_op h -> word letters k -> List.length k <= J ->
     snd (pk_get Bk (pk_run Bk s1 h) k) = Ok (packet_walk (bw_letter2 (tprod (fun k => mget (A k))) nax true) k x)).
Proof.
  intros Hh0 Hw Hg Hf Hax nax Hb Hn. destruct (default_2d w L method axes true g HLA B HI Hta h0 x h k Hh0 Hw Hg Hf Hax Hb Hn) as (s1 & J & H).
  exists s1, J, (Am LA w method g). split; [apply Am_matrices|exact H].
Qed.
Theorem C54_default_level_nonseparable h0 x h k (Bk := packet2b LA w method axes false) :
  Forall (op_data (is_data g)) h0 -> wf x -> ttag x = g -> float_tensor x -> axes_ok (rank x) axes ->
  let nax := map (norm_axis (rank x)) axes in batch_nonempty nax x -> Forall (fun n => 1 <= n) (gather nax 0 (shp x)) ->
  exists s1 J A, image_matrices A /\ J = default_level L (Nat.min (nth (nth 0 nax 0) (shp x) 0) (nth (nth 1 nax 0) (shp x) 0)) /\
    pk_transform Bk (pk_run Bk (pk_new Bk ([], [])) h0) x None = (s1, Ok tt) /\ p_max s1 = Some (Z.of_nat J) /\
    (Forall read_op h -> word letters k -> List.length k <= J ->
     snd (pk_get Bk (pk_run Bk s1 h) k) = Ok (packet_walk (bw_letter2 (image_matrix (fun h v => mget (A h v))) nax false) k x)).
Proof.
  intros Hh0 Hw Hg Hf Hax nax Hb Hn. destruct (default_2d w L method axes false g HLA B HI Hta h0 x h k Hh0 Hw Hg Hf Hax Hb Hn) as (s1 & J & H).
  exists s1, J, (A2 LA w method g). split; [apply A2_matrices|exact H].
Qed.
End Final.
End PM2.
