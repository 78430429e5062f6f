(** Property theorems for the packet objects with mode="boundary": C54, C55, C56. *)
From Coq Require Import List Arith ZArith Lia Bool String Ascii Ring.
From Coq Require Import ZifyNat ZifyBool.
From Verif Require Import Base Sums Tensor TensorFacts Util Perm Plumb Accept Spec Conv1 Conv2 PadFacts CoreFacts AnalysisInv Synthesis Filters Wave1 Wave1Inv Rec1 Spec2 WaveN RecN Sep SepFacts Lin Sparse SparseFacts SpecMat SpecMatN SparseMM LinAlg PropsOrth GramSchmidt Mat1 MatN MatOrth Boundary Boundary2 MatPre Mat1Facts Mat1Call Tags PropsMat1 MatNFacts MatNLoop MatNSep MatNNon MatNCall PropsMatN PropsMatN2 PropsMatNon PropsTagMat Packets SpecPk PacketFacts Orders PacketConv PropsPk PacketsM SpecPkM PkInv PropsPkRead.
Import ListNotations.
Ltac Zify.zify_post_hook ::= Z.div_mod_to_equations.
Local Arguments Nat.div : simpl never.
Local Arguments Nat.modulo : simpl never.

(** a default tree of depth J has J levels of at least the filter length *)
Lemma half_bound L n J : 2 <= L -> (L - 1) * 2 ^ S J <= n -> L <= n /\ (L - 1) * 2 ^ J <= even_up n / 2.
Proof. intros HL H. cbn [Nat.pow] in H. pose proof (Nat.neq_0_lt_0 (2 ^ J)). assert (2 ^ J <> 0) by (apply Nat.pow_nonzero; lia). unfold even_up. split; [nia|]. apply Nat.div_le_lower_bound; nia. Qed.
Lemma default_bound L n J : 2 <= L -> 1 <= n -> 1 <= J -> J <= default_level L n -> (L - 1) * 2 ^ J <= n.
Proof.
  intros HL Hn H1 HJ. unfold default_level in HJ. destruct (Nat.ltb_spec n (L - 1)); [lia|].
  assert (Hq : 1 <= n / (L - 1)) by (apply Nat.div_le_lower_bound; lia).
  pose proof (Nat.log2_spec (n / (L - 1)) ltac:(lia)) as [Hl _]. pose proof (Nat.pow_le_mono_r 2 J _ ltac:(lia) HJ). pose proof (Nat.mul_div_le n (L - 1) ltac:(lia)). nia.
Qed.

(** ** the arguments shared by the three classes of trees *)
Section Tree.
Context {K : CRing}.
Implicit Types t u x : tensor K.
Variables (Bk : backend K) (D : tensor K -> Prop) (Inv : be_st Bk -> Prop) (f : tensor K -> result (list (tensor K))) (synth : list (tensor K) -> result (tensor K)).
Variables (NAX : nat -> list nat) (step : list nat -> ascii -> tensor K -> tensor K) (b0 : be_st Bk).
Notation letters := (be_letters Bk).
Hypothesis nodup : NoDup letters.
Hypothesis letters_ne : letters <> [].
Hypothesis order_ok : forall l, NoDup (be_order Bk l) /\ forall p, In p (be_order Bk l) <-> List.length p = l /\ word letters p.
Hypothesis init_ok : Inv b0.
Hypothesis D_wf : forall t, D t -> wf t.
Hypothesis dec_pure : forall b t, Inv b -> D t -> Inv (fst (be_dec Bk b t)) /\ snd (be_dec Bk b t) = f t.
Hypothesis rec_pure : forall b ch, Inv b -> Forall D ch -> Inv (fst (be_rec Bk b ch)) /\ snd (be_rec Bk b ch) = synth ch.
Hypothesis f_inv : forall t ch, D t -> f t = Ok ch -> ch = map (fun c => step (NAX (rank t)) c t) letters.
Hypothesis step_D : forall nax c t, D t -> D (step nax c t).
Hypothesis step_rank : forall nax c t, rank (step nax c t) = rank t.
Hypothesis pr : forall t ch, D t -> f t = Ok ch -> synth ch = Ok (ext_even Mzero (NAX (rank t)) t).
Hypothesis crop_ok : forall t ch, D t -> f t = Ok ch -> be_crop Bk (ext_even Mzero (NAX (rank t)) t) t = Ok t.
Hypothesis axes_good : forall t ch, D t -> f t = Ok ch -> good_axes (rank t) (NAX (rank t)).
Hypothesis synth_D : forall ch r, Forall D ch -> synth ch = Ok r -> D r.
Hypothesis crop_D : forall r n r', D r -> be_crop Bk r n = Ok r' -> D r'.

Lemma tree_children t ch : D t -> f t = Ok ch -> List.length ch = List.length letters /\ Forall D ch.
Proof. intros Hd H. rewrite (f_inv t ch Hd H). split; [apply map_length|]. apply Forall_forall. intros u Hu. apply in_map_iff in Hu as (c & <- & _). apply step_D, Hd. Qed.
Lemma tree_sound h0 : Forall (op_data D) h0 -> sound Bk Inv D (pk_run Bk (pk_new Bk b0) h0).
Proof.
  intros Hh. apply (sound_run Bk Inv D); auto.
  - intros b t Hi Hd. destruct (dec_pure b t Hi Hd) as [H1 H2]. split; [exact H1|]. intros ch E. rewrite H2 in E. apply (tree_children t ch Hd E).
  - intros b ch Hi Hc. destruct (rec_pure b ch Hi Hc) as [H1 H2]. split; [exact H1|]. intros r E. rewrite H2 in E. apply (synth_D ch r Hc E).
  - intros r n r' Hr _. apply crop_D, Hr.
  - apply sound_new. exact init_ok.
Qed.
Lemma tree_read h0 m (q : key) : Forall (op_data D) h0 -> let s := pk_run Bk (pk_new Bk b0) h0 in
  p_max s = Some m -> (exists r t : key, q = r ++ t /\ kget (p_data s) r <> None) -> (kget (p_data s) q <> None \/ (Z.of_nat (List.length q) <= m)%Z) ->
  let s' := fst (pk_get Bk s q) in
  p_max s' = Some m /\ read_as f letters (kget (p_data s)) (kget (p_data s')) q (snd (pk_get Bk s q)).
Proof.
  intros Hh s Hm Hex Hl s'. destruct (tree_sound h0 Hh) as [Hi Hd]. fold s in Hi, Hd.
  destruct (read_any Bk nodup Inv D f dec_pure tree_children s m q Hm Hi (fun k v => sound_get Bk D s k v Hd) Hex Hl) as (E1 & _ & E2). split; assumption.
Qed.
Lemma tree_holds h0 x ml s1 m h : Forall (op_data D) h0 -> D x -> pk_transform Bk (pk_run Bk (pk_new Bk b0) h0) x ml = (s1, Ok tt) -> p_max s1 = Some m ->
  Forall read_op h -> holds Bk Inv f x m (pk_run Bk s1 h).
Proof.
  intros Hh0 Hx Ht Hm Hh. apply (holds_run Bk nodup Inv D f dec_pure tree_children x m h Hx Hh).
  apply (transform_holds Bk Inv f (pk_run Bk (pk_new Bk b0) h0) x ml s1 m); auto. apply tree_sound, Hh0.
Qed.
Lemma tree_reads h0 x ml s1 m h k : Forall (op_data D) h0 -> D x -> pk_transform Bk (pk_run Bk (pk_new Bk b0) h0) x ml = (s1, Ok tt) -> p_max s1 = Some m ->
  Forall read_op h -> snd (pk_get Bk (pk_run Bk s1 h) k) = packet_read f letters x m k.
Proof.
  intros Hh0 Hx Ht Hm Hh. destruct (holds_read Bk nodup Inv D f dec_pure tree_children x m k Hx _ (tree_holds h0 x ml s1 m h Hh0 Hx Ht Hm Hh)) as [_ H]. exact H.
Qed.
Lemma child_mapM (F : ascii -> tensor K) ls c : In c ls -> child ls (map F ls) c = Some (F c).
Proof. induction ls as [|l ls IH]; intros H; [destruct H|]. cbn. destruct (Ascii.eqb_spec l c) as [->|Hc]; [reflexivity|]. apply IH. destruct H; [congruence|assumption]. Qed.
Lemma walk_snoc (stp : ascii -> tensor K -> tensor K) p c x : packet_walk stp (p ++ [c]) x = stp c (packet_walk stp p x).
Proof. unfold packet_walk. rewrite fold_left_app. reflexivity. Qed.
Lemma walk_facts nax p x : D x -> D (packet_walk (step nax) p x) /\ rank (packet_walk (step nax) p x) = rank x.
Proof. intros Hx. induction p as [|c p IH] using rev_ind; [auto|]. rewrite walk_snoc. split; [apply step_D, IH|]. rewrite step_rank. apply IH. Qed.
Lemma tree_node x p v : D x -> node_at f letters x p = Ok v -> v = packet_walk (step (NAX (rank x))) p x.
Proof.
  intros Hx. revert v. induction p as [|c p IH] using rev_ind; intros v H; [injection H as <-; reflexivity|].
  rewrite (node_snoc Bk f) in H. destruct (memc c letters) eqn:Ec; [|discriminate]. apply memc_In in Ec.
  destruct (node_at f letters x p) as [u|]; [|discriminate]. specialize (IH u eq_refl). cbn [rbind] in H. destruct (f u) as [ch|] eqn:Ef; [|discriminate]. cbn [rbind] in H.
  destruct (walk_facts (NAX (rank x)) p x Hx) as [H1 H2]. rewrite <- IH in H1, H2. rewrite (f_inv u ch H1 Ef), child_mapM in H by exact Ec. injection H as <-. rewrite walk_snoc, <- IH, H2. reflexivity.
Qed.
(** [fit J t]: J levels can be computed *)
Variable fit : nat -> tensor K -> Prop.
Hypothesis fit_ok : forall J t, D t -> fit (S J) t -> exists ch, f t = Ok ch.
Hypothesis fit_step : forall J c t, D t -> fit (S J) t -> fit J (step (NAX (rank t)) c t).
Lemma tree_exists x p J : D x -> fit J x -> word letters p -> List.length p <= J -> node_at f letters x p = Ok (packet_walk (step (NAX (rank x))) p x) /\ fit (J - List.length p) (packet_walk (step (NAX (rank x))) p x).
Proof.
  clear - f_inv step_D step_rank fit_ok fit_step. intros Hx HF. induction p as [|c p IH] using rev_ind; intros Hw Hl; [rewrite Nat.sub_0_r; auto|].
  rewrite app_length in *. cbn [List.length] in *. apply Forall_app in Hw as [Hw Hc]. apply Forall_inv in Hc. destruct (IH Hw ltac:(lia)) as [H1 H2].
  destruct (walk_facts (NAX (rank x)) p x Hx) as [G1 G2]. rewrite (node_snoc Bk f), (proj2 (memc_In _ _) Hc), H1. cbn [rbind].
  replace (J - List.length p) with (S (J - (List.length p + 1))) in H2 by lia. destruct (fit_ok _ _ G1 H2) as [ch Hch]. rewrite Hch. cbn [rbind].
  rewrite (f_inv _ ch G1 Hch), child_mapM by exact Hc. rewrite walk_snoc, G2. split; [reflexivity|].
  pose proof (fit_step _ c _ G1 H2) as HS. rewrite G2 in HS. exact HS.
Qed.
Lemma tree_rec h0 x ml s1 M h : Forall (op_data D) h0 -> D x -> pk_transform Bk (pk_run Bk (pk_new Bk b0) h0) x ml = (s1, Ok tt) -> p_max s1 = Some M -> (1 <= M)%Z ->
  Forall read_op h -> (forall p, word letters p -> List.length p = Z.to_nat M -> kget (p_data (pk_run Bk s1 h)) p <> None) ->
  exists s3 y, pk_reconstruct Bk (pk_run Bk s1 h) = (s3, Ok tt) /\ kget (p_data s3) [] = Some y /\ agrees_on x y /\
    shp y = upds (NAX (rank x)) (map even_up (gather (NAX (rank x)) 0 (shp x))) (shp x).
Proof.
  intros Hh0 Hx Ht HM H1 Hh Hleaf. pose proof (tree_holds h0 x ml s1 M h Hh0 Hx Ht HM Hh) as Hs.
  destruct (reconstruct_pr Bk nodup order_ok Inv D f synth tree_children D) with (R := fun t r => r = ext_even Mzero (NAX (rank t)) t /\ good_axes (rank t) (NAX (rank t))) (x := x) (m := M) (s := pk_run Bk s1 h)
    as (s3 & ch & r & R1 & R2 & R3 & R4 & R5); auto.
  - intros t ch Hd E. eexists. split; [apply (pr t ch Hd E)|]. split; [apply (crop_ok t ch Hd E)|]. split; [reflexivity|apply (axes_good t ch Hd E)].
  - exists s3, r. split; [exact R1|]. split; [exact R5|]. destruct R4 as [-> Hg]. split; [apply ext_even_agrees; [apply D_wf, Hx|exact Hg]|]. apply shp_ext_even.
Qed.
Lemma tree_missing h0 x ml s1 M h p : Forall (op_data D) h0 -> D x -> pk_transform Bk (pk_run Bk (pk_new Bk b0) h0) x ml = (s1, Ok tt) -> p_max s1 = Some M ->
  Forall read_op h -> word letters p -> List.length p = Z.to_nat M -> p <> [] -> kget (p_data (pk_run Bk s1 h)) p = None ->
  snd (pk_reconstruct Bk (pk_run Bk s1 h)) = Raise KeyError.
Proof.
  intros Hh0 Hx Ht HM Hh Hw Hl Hne Hk. pose proof (tree_holds h0 x ml s1 M h Hh0 Hx Ht HM Hh) as Hs.
  apply (reconstruct_missing Bk nodup order_ok Inv D f synth tree_children D) with (R := fun t r => True) (x := x) (m := M) (p := p); auto.
  intros t ch Hd E. eexists. split; [apply (pr t ch Hd E)|]. split; [apply (crop_ok t ch Hd E)|exact I].
Qed.
End Tree.

Section PM.
Context {K : CRing}.
Implicit Types t u x : tensor K.
Variable LA : linalg K.
Hypothesis HD : domain K.
Hypothesis HR : formally_real K.

(** what fresh one-level objects compute *)
Definition one_level1 (w : wavelet K) (method : string) (axis : Z) t : result (list (tensor K)) :=
  let* _ := shape_at t axis in
  let* o := new_mwavedec w (Some 1%Z) (AxInt axis) method (Some "zero"%string) in
  let* c := snd (mw_call LA o t) in two_of c.
Definition one_synth1 (w : wavelet K) (method : string) (axis : Z) (ch : list (tensor K)) : result (tensor K) :=
  match ch with
  | a :: _ => let* _ := shape_at a axis in let* r := new_mwaverec w (AxInt axis) method in snd (mr_call LA r (map PT ch))
  | [] => Raise IndexError
  end.

Definition is_data (g : tag) t : Prop := wf t /\ ttag t = g.

Section Bank.
Variables (w : wavelet K) (L : nat) (method : string).
Hypothesis HLA : la_ok LA method.
Hypothesis B : orthogonal_bank L (dec_lo w) (dec_hi w) (rec_lo w) (rec_hi w).
Hypothesis HI : boundary_independent L (dec_lo w) (dec_hi w).
Let HL := ob_two _ _ _ _ _ B.
Let Hdl := ob_len_lo _ _ _ _ _ B.
Let Hrl := bank_rl w L B.
Let Htr g n := boundary_s_transpose LA g w n L method B.
Let HM g := bank_mats LA HD HR g w L method HLA B HI.
Let Hsup : orth_supported method = true := la_ok_sup LA method HLA.

Section OneD.
Variables (axis : Z) (g : tag).
Notation fr := (mkMW w (Some 1%Z) axis method (Some "zero"%string) None [] [] false []).
Notation frr := (mkMR w [axis] method [] None None false []).
Lemma new1 : new_mwavedec w (Some 1%Z) (AxInt axis) method (Some "zero"%string) = Ok fr.
Proof. unfold new_mwavedec, ensure_axes. cbn. rewrite Hsup. cbn [negb]. rewrite Hrl, Hdl, Nat.eqb_refl. reflexivity. Qed.
Lemma new1r : new_mwaverec w (AxInt axis) method = Ok frr.
Proof. unfold new_mwaverec, ensure_axes. cbn. rewrite Hsup. cbn [negb]. rewrite Hrl, Hdl, Nat.eqb_refl. reflexivity. Qed.
Lemma one_level1_eq t : one_level1 w method axis t = let* _ := shape_at t axis in let* c := snd (mw_call LA fr t) in two_of c.
Proof. unfold one_level1. rewrite new1. reflexivity. Qed.

Definition P1 (o : mwavedec K) : Prop := mw_wav o = w /\ mw_method o = method /\ mw_odd o = Some "zero"%string /\ mw_axis o = axis /\ mw_level o = Some 1%Z /\ mw_cached LA w method L g o.
Definition P1r (r : mwaverec K) : Prop := mr_wav r = w /\ mr_method r = method /\ mr_axes r = [axis] /\ mr_cached LA w method L g r.
Definition Inv1 (b : be_st (packet1b LA w method axis)) : Prop := all_in P1 (fst b) /\ all_in P1r (snd b).
Lemma dec1b_pure b t : Inv1 b -> is_data g t -> Inv1 (fst (be_dec (packet1b LA w method axis) b t)) /\ snd (be_dec (packet1b LA w method axis) b t) = one_level1 w method axis t.
Proof.
  intros [H1 H2] [Hw Hg]. rewrite one_level1_eq. cbn [packet1b be_dec]. unfold dec1b. destruct (shape_at t axis) as [n|e]; [|cbn [fst snd rbind]; split; [split; assumption|reflexivity]].
  destruct (cached_call_ok P1 (is_data g) (new_mwavedec w (Some 1%Z) (AxInt axis) method (Some "zero"%string)) (mw_call LA) (fun x => snd (mw_call LA fr x))) with (d := fst b) (n := [n]) (x := t) as [G1 G2].
  - intros y _. rewrite new1. repeat split. left. reflexivity.
  - intros o y (E1 & E2 & E3 & E4 & E5 & E6) [Hy Hyg]. destruct (mw_same LA HD HR w L method HLA B HI g (Some "zero"%string) 1%Z axis o y E1 E2 E3 E4 E5 E6 Hy Hyg) as (G & G'). split; [exact G|exact G'].
  - exact H1.
  - split; assumption.
  - destruct (cached_call _ _ (fst b) [n] t) as [d' r]. cbn [fst snd] in *. split; [split; assumption|]. rewrite G1. reflexivity.
Qed.
Lemma rec1b_pure b ch : Inv1 b -> Forall (is_data g) ch -> Inv1 (fst (be_rec (packet1b LA w method axis) b ch)) /\ snd (be_rec (packet1b LA w method axis) b ch) = one_synth1 w method axis ch.
Proof.
  intros [H1 H2] Hch. cbn [packet1b be_rec]. unfold rec1b, one_synth1. destruct ch as [|a ch]; [cbn [fst snd]; split; [split; assumption|reflexivity]|].
  destruct (shape_at a axis) as [n|e]; [|cbn [fst snd rbind]; split; [split; assumption|reflexivity]]. rewrite new1r. cbn [rbind].
  destruct (cached_call_ok P1r (fun cs => forall t, In t (pc_tensors (mkPC true cs)) -> ttag t = g) (Ok frr) (mr_call LA) (fun cs => snd (mr_call LA frr cs))) with (d := snd b) (n := [n]) (x := map PT (a :: ch)) as [G1 G2].
  - intros y _. repeat split. left. reflexivity.
  - intros r cs (E1 & E2 & E3 & E4) Hcs. destruct (mr_same LA HD HR w L method HLA B HI g [axis] r cs E1 E2 E3 E4 Hcs) as (G & G'). split; [exact G|exact G'].
  - exact H2.
  - intros t Ht. rewrite pc_tensors_list in Ht. rewrite Forall_forall in Hch. apply Hch. exact Ht.
  - destruct (cached_call _ _ (snd b) [n] _) as [d' r]. cbn [fst snd] in *. split; [split; assumption|]. exact G1.
Qed.

(** one level: the two halves of the boundary-wavelet transform *)
Lemma one_level1_inv t ch : is_data g t -> one_level1 w method axis t = Ok ch ->
  is_dtype_supported (tdtype t) = true /\ axis_ok (rank t) axis /\ let a := norm_axis (rank t) axis in
  (L <= even_up (nth a (shp t) 0))%nat /\ ch = map (fun c => bw_letter1 (fun k => mget (Am LA w method g k)) a c t) ["a"; "d"]%char /\
  snd (mw_call LA fr t) = Ok (mkPC true (map PT ch)).
Proof.
  intros [Hw Hg] H. rewrite one_level1_eq in H. apply rbind_ok in H as (n0 & Hs & H). apply rbind_ok in H as (c & Hc & H). apply shape_at_inv in Hs.
  destruct (mw_call LA fr t) as [o' rc] eqn:Ec. cbn [snd] in Hc. subst rc.
  destruct (mw_call_inv LA fr o' t Mzero _ Hw eq_refl Ec) as (Hdt & Hax & He & lev & Hlev). cbn [mw_axis mw_wav mw_level] in *. unfold mw_lev in Hlev. cbn in Hlev. injection Hlev as <-.
  set (a := norm_axis (rank t) axis) in *. pose proof (norm_axis_lt _ _ Hs) as Ha. fold a in Ha.
  destruct (mw_call_ok LA w method Mzero L g (HM g) HL Hdl Hrl (Htr g) fr t axis (Some "zero"%string) 1%Z) as (o2 & E & _); auto.
  { left. reflexivity. }
  rewrite E in Ec. apply (f_equal snd) in Ec. cbn [snd] in Ec. apply ok_injM in Ec. fold a in Ec.
  set (n := even_up (nth a (shp t) 0)) in *. set (X := ext_even Mzero [a] t) in *.
  assert (HX : ext_even Mzero [a] X = X).
  { unfold X. apply ext_even_id; [apply wf_make| |]. { unfold ext_even. rewrite rank_along. apply good_axes1, Ha. }
    constructor; [|constructor]. rewrite shp_ext_even. cbn [gather map upds]. rewrite nth_updn_eq by exact Ha. apply even_up_even. }
  assert (HnX : bw_size a X = n).
  { unfold bw_size, X. rewrite shp_ext_even. cbn [gather map upds]. rewrite nth_updn_eq by exact Ha. apply even_up_id, even_up_even. }
  change (Z.to_nat 1) with 1%nat in Ec. cbn [bw_levels] in Ec. destruct (Nat.ltb_spec n L) as [Hn|Hn].
  - subst c. cbn in H. discriminate.
  - subst c. cbn [bw_coeffs pc_items seq rev app map] in H. unfold bw_coeffs in H. cbn in H. injection H as <-.
    split; [exact Hdt|]. split; [exact Hs|]. cbv zeta. split; [exact Hn|].
    assert (E1 : bw_lo (fun k => mget (Am LA w method g k)) Mzero a X = bw_lo (fun k => mget (Am LA w method g k)) Mzero a t).
    { unfold bw_lo. rewrite HX, HnX. reflexivity. }
    assert (E2 : bw_hi (fun k => mget (Am LA w method g k)) Mzero a X = bw_hi (fun k => mget (Am LA w method g k)) Mzero a t).
    { unfold bw_hi. rewrite HX, HnX. reflexivity. }
    split.
    + cbn [map]. unfold bw_letter1. cbn [Ascii.eqb Bool.eqb]. rewrite <- E1, <- E2. reflexivity.
    + reflexivity.
Qed.
Lemma one_level1_ok t : is_data g t -> is_dtype_supported (tdtype t) = true -> axis_ok (rank t) axis -> (L <= even_up (nth (norm_axis (rank t) axis) (shp t) 0))%nat ->
  exists ch, one_level1 w method axis t = Ok ch.
Proof.
  intros [Hw Hg] Hdt Hax Hn. rewrite one_level1_eq, shape_at_ok by exact Hax. cbn [rbind].
  destruct (mw_call_ok LA w method Mzero L g (HM g) HL Hdl Hrl (Htr g) fr t axis (Some "zero"%string) 1%Z) as (o2 & E & _); auto.
  { right. exact I. }
  { left. reflexivity. }
  rewrite E. cbn [snd rbind]. change (Z.to_nat 1) with 1%nat. cbn [bw_levels]. destruct (Nat.ltb_spec (even_up (nth (norm_axis (rank t) axis) (shp t) 0)) L); [lia|]. eexists. reflexivity.
Qed.
Lemma one_level1_pr t ch : is_data g t -> one_level1 w method axis t = Ok ch -> one_synth1 w method axis ch = Ok (ext_even Mzero [norm_axis (rank t) axis] t).
Proof.
  intros Hd H. destruct (one_level1_inv t ch Hd H) as (_ & Hax & _ & Hch & Hc). destruct Hd as [Hw Hg].
  destruct (mw_call LA fr t) as [o' rc] eqn:Ec. cbn [snd] in Hc. subst rc.
  pose proof (C40_reconstruction LA HD HR w L method Mzero HLA B HI (Some 1%Z) axis fr t o' _ frr Hw new1 Ec new1r) as HR1. cbn [pc_items] in HR1.
  unfold one_synth1. destruct ch as [|a ch']; [discriminate|]. rewrite shape_at_ok, new1r; [exact HR1|].
  cbn [map] in Hch. injection Hch as -> _. unfold bw_letter1. cbn [Ascii.eqb Bool.eqb]. unfold bw_lo, mat_axis. rewrite rank_along. unfold ext_even. rewrite rank_along. exact Hax.
Qed.
Lemma one_synth1_data ch r : Forall (is_data g) ch -> one_synth1 w method axis ch = Ok r -> is_data g r.
Proof.
  intros Hch H. unfold one_synth1 in H. destruct ch as [|a ch]; [discriminate|]. apply rbind_ok in H as (n & _ & H). rewrite new1r in H. cbn [rbind] in H. split.
  - eapply mr_call_wf; exact H.
  - cbn [map] in H. apply C52_MatrixWaverec in H. rewrite H. apply (Forall_inv Hch).
Qed.
Lemma crop1_data r n r' : is_data g r -> crop1 axis r n = Ok r' -> is_data g r'.
Proof.
  intros [Hw Hg] H. unfold crop1 in H. apply rbind_ok in H as (a & _ & H). apply rbind_ok in H as (b & _ & H). destruct (Nat.eqb _ _); [injection H as <-; split; assumption|].
  destruct (Nat.eqb _ _); [|discriminate]. injection H as <-. split; [apply wf_transpose|exact Hg].
Qed.
Lemma letter1_data A a c t : is_data g t -> is_data g (bw_letter1 A a c t).
Proof. intros [Hw Hg]. unfold bw_letter1. destruct (Ascii.eqb c "d"); (split; [apply wf_mat_axis|exact Hg]). Qed.
Lemma letter1_shp A a c t : shp (bw_letter1 A a c t) = updn a (even_up (nth a (shp t) 0) / 2) (shp t).
Proof.
  unfold bw_letter1, bw_hi, bw_lo, bw_size. destruct (Ascii.eqb c "d"); rewrite shp_mat_axis, shp_ext_even; cbn [gather map upds]; apply updn_updn.
Qed.
Let A1 k := mget (Am LA w method g k).
Let NAX r := [norm_axis r axis].
Let step (nax : list nat) c t := bw_letter1 A1 (nth 0 nax 0) c t.
Let fit J t := is_dtype_supported (tdtype t) = true /\ axis_ok (rank t) axis /\ (1 <= J -> (L - 1) * 2 ^ J <= nth (norm_axis (rank t) axis) (shp t) 0).
Notation Bk := (packet1b LA w method axis).
Lemma A1_ok k : L <= k -> k mod 2 = 0 -> construct_boundary_a LA g w k method = Ok (Am LA w method g k) /\ orthogonal k (A1 k).
Proof. intros H1 H2. destruct (Am_ok LA w method L g (HM g) k H1 H2) as (H3 & _ & _ & _ & _ & H4). auto. Qed.

(** C54: whatever was done with the object before, as long as its data had one dtype and device: after transform(x)
    reading a node gives what fresh one-level objects give, in any order of reads *)
Theorem C54_reads_1d h0 x maxlevel s1 m h k :
  Forall (op_data (is_data g)) h0 -> wf x -> ttag x = g ->
  pk_transform Bk (pk_run Bk (pk_new Bk ([], [])) h0) x maxlevel = (s1, Ok tt) -> p_max s1 = Some m -> Forall read_op h ->
  snd (pk_get Bk (pk_run Bk s1 h) k) = packet_read (one_level1 w method axis) ["a"; "d"]%char x m k.
Proof.
  intros Hh0 Hw Hg Ht Hm Hh.
  apply (tree_reads Bk (is_data g) Inv1 (one_level1 w method axis) (one_synth1 w method axis) NAX step ([], [])) with (h0 := h0) (ml := maxlevel); auto.
  - apply nodup1.
  - split; constructor.
  - apply dec1b_pure.
  - apply rec1b_pure.
  - intros t ch Hd E. apply (one_level1_inv t ch Hd E).
  - intros. apply letter1_data; assumption.
  - apply one_synth1_data.
  - apply crop1_data.
  - split; assumption.
Qed.
(** C77: a read of an object with any history (assignments and deletions included) of data of one dtype and device *)
Theorem C77_read_boundary_1d h0 m (q : key) : Forall (op_data (is_data g)) h0 -> let s := pk_run Bk (pk_new Bk ([], [])) h0 in
  p_max s = Some m -> (exists r t : key, q = r ++ t /\ kget (p_data s) r <> None) -> (kget (p_data s) q <> None \/ (Z.of_nat (List.length q) <= m)%Z) ->
  let s' := fst (pk_get Bk s q) in
  p_max s' = Some m /\ read_as (one_level1 w method axis) ["a"; "d"]%char (kget (p_data s)) (kget (p_data s')) q (snd (pk_get Bk s q)).
Proof.
  intros Hh0.
  apply (tree_read Bk (is_data g) Inv1 (one_level1 w method axis) (one_synth1 w method axis) NAX step ([], [])); auto.
  - apply nodup1.
  - split; constructor.
  - apply dec1b_pure.
  - apply rec1b_pure.
  - intros t ch Hd E. apply (one_level1_inv t ch Hd E).
  - intros. apply letter1_data; assumption.
  - apply one_synth1_data.
  - apply crop1_data.
Qed.
(** the value of a node: one level of the boundary-wavelet transform per letter, with orthogonal matrices *)
Theorem C54_node_1d x p v : wf x -> ttag x = g -> node_at (one_level1 w method axis) ["a"; "d"]%char x p = Ok v ->
  exists A, (forall k, L <= k -> k mod 2 = 0 -> construct_boundary_a LA g w k method = Ok (A k) /\ orthogonal k (mget (A k))) /\
    v = packet_walk (bw_letter1 (fun k => mget (A k)) (norm_axis (rank x) axis)) p x.
Proof.
  intros Hw Hg H. exists (Am LA w method g). split; [apply A1_ok|].
  refine (tree_node Bk (is_data g) (one_level1 w method axis) NAX step _ _ _ x p v (conj Hw Hg) H).
  - intros t ch Hd E. apply (one_level1_inv t ch Hd E).
  - intros. apply letter1_data; assumption.
  - intros nax c t. unfold rank, step. rewrite letter1_shp. apply updn_length.
Qed.
(** with the default maxlevel every node can be read *)
Theorem C54_default_level_1d h0 x h k :
  Forall (op_data (is_data g)) h0 -> wf x -> ttag x = g -> float_tensor x -> axis_ok (rank x) axis ->
  let a := norm_axis (rank x) axis in 1 <= nth a (shp x) 0 ->
  let J := default_level L (nth a (shp x) 0) in
  exists s1 A, pk_transform Bk (pk_run Bk (pk_new Bk ([], [])) h0) x None = (s1, Ok tt) /\ p_max s1 = Some (Z.of_nat J) /\
    (forall k, L <= k -> k mod 2 = 0 -> construct_boundary_a LA g w k method = Ok (A k) /\ orthogonal k (mget (A k))) /\
    (Forall read_op h -> word ["a"; "d"]%char k -> List.length k <= J ->
     snd (pk_get Bk (pk_run Bk s1 h) k) = Ok (packet_walk (bw_letter1 (fun k => mget (A k)) a) k x)).
Proof.
  intros Hh0 Hw Hg Hf Hax a Hn J. assert (Hd : is_dtype_supported (tdtype x) = true) by (apply is_float; exact Hf).
  set (s0 := pk_run Bk (pk_new Bk ([], [])) h0).
  assert (Ht : pk_transform Bk s0 x None = (mkP [([], x)] (Some (Z.of_nat J)) (p_be s0), Ok tt)).
  { unfold pk_transform. cbn [packet1b be_maxlevel]. rewrite shape_at_ok by exact Hax. cbn [rbind]. fold a. unfold get_len. rewrite Hdl, dwt_max_level_val by exact HL. reflexivity. }
  exists (mkP [([], x)] (Some (Z.of_nat J)) (p_be s0)), (Am LA w method g). split; [exact Ht|]. split; [reflexivity|]. split; [apply A1_ok|]. intros Hh Hk Hl.
  rewrite (C54_reads_1d h0 x None _ (Z.of_nat J) h k Hh0 Hw Hg Ht eq_refl Hh). unfold packet_read. destruct k as [|c k]; [reflexivity|]. rewrite (proj2 (Z.leb_le _ _)) by lia.
  refine (proj1 (tree_exists Bk (is_data g) (one_level1 w method axis) NAX step _ _ _ fit _ _ x (c :: k) J (conj Hw Hg) _ Hk Hl)).
  - intros t ch Hdt E. apply (one_level1_inv t ch Hdt E).
  - intros. apply letter1_data; assumption.
  - intros nax c' t. unfold rank, step. rewrite letter1_shp. apply updn_length.
  - intros J' t Hdt (F1 & F2 & F3). apply one_level1_ok; auto. specialize (F3 ltac:(lia)). destruct (half_bound L _ J' HL F3) as [F4 _]. unfold even_up. lia.
  - intros J' c' t Hdt (F1 & F2 & F3). unfold fit, step. cbn [nth NAX]. assert (Hr : rank (bw_letter1 A1 (norm_axis (rank t) axis) c' t) = rank t) by (unfold rank; rewrite letter1_shp; apply updn_length).
    split; [|split].
    + unfold tdtype in *. rewrite (proj2 (letter1_data A1 (norm_axis (rank t) axis) c' t Hdt)). rewrite (proj2 Hdt) in F1. exact F1.
    + rewrite Hr. exact F2.
    + intros _. rewrite Hr, letter1_shp, nth_updn_eq by (apply norm_axis_lt; exact F2). apply half_bound; [exact HL|]. apply F3. lia.
  - split; [exact Hd|]. split; [exact Hax|]. intros HJ. apply default_bound; [exact HL|exact Hn|exact HJ|apply le_n].
Qed.
(** C55: reconstruct after any reads that computed all the leaves *)
Theorem C55_reconstruct_1d h0 x maxlevel s1 M h s2 :
  Forall (op_data (is_data g)) h0 -> wf x -> ttag x = g ->
  pk_transform Bk (pk_run Bk (pk_new Bk ([], [])) h0) x maxlevel = (s1, Ok tt) -> p_max s1 = Some M -> (1 <= M)%Z ->
  Forall read_op h -> pk_run Bk s1 h = s2 ->
  (forall p, word ["a"; "d"]%char p -> List.length p = Z.to_nat M -> kget (p_data s2) p <> None) ->
  exists s3 y, pk_reconstruct Bk s2 = (s3, Ok tt) /\ kget (p_data s3) [] = Some y /\
    agrees_on x y /\ let a := norm_axis (rank x) axis in shp y = updn a (even_up (nth a (shp x) 0)) (shp x).
Proof.
  intros Hh0 Hw Hg Ht HMx H1 Hh <- Hleaf.
  apply (tree_rec Bk (is_data g) Inv1 (one_level1 w method axis) (one_synth1 w method axis) NAX step ([], [])) with (h0 := h0) (ml := maxlevel) (M := M); auto.
  - apply nodup1.
  - discriminate.
  - apply order_ok1.
  - split; constructor.
  - intros t Hd. apply Hd.
  - apply dec1b_pure.
  - apply rec1b_pure.
  - intros t ch Hd E. apply (one_level1_inv t ch Hd E).
  - intros. apply letter1_data; assumption.
  - apply one_level1_pr.
  - intros t ch Hd E. destruct (one_level1_inv t ch Hd E) as (_ & Hax & _). apply crop1_ok; [apply Hd|exact Hax].
  - intros t ch Hd E. destruct (one_level1_inv t ch Hd E) as (_ & Hax & _). apply good_axes1, norm_axis_lt, Hax.
  - apply one_synth1_data.
  - apply crop1_data.
  - split; assumption.
Qed.
Theorem C55_missing_leaf_1d h0 x maxlevel s1 M h p :
  Forall (op_data (is_data g)) h0 -> wf x -> ttag x = g ->
  pk_transform Bk (pk_run Bk (pk_new Bk ([], [])) h0) x maxlevel = (s1, Ok tt) -> p_max s1 = Some M ->
  Forall read_op h -> word ["a"; "d"]%char p -> List.length p = Z.to_nat M -> p <> [] -> kget (p_data (pk_run Bk s1 h)) p = None ->
  snd (pk_reconstruct Bk (pk_run Bk s1 h)) = Raise KeyError.
Proof.
  intros Hh0 Hw Hg Ht HMx Hh Hp Hl Hne Hk.
  apply (tree_missing Bk (is_data g) Inv1 (one_level1 w method axis) (one_synth1 w method axis) NAX step ([], [])) with (h0 := h0) (x := x) (ml := maxlevel) (M := M) (p := p); auto.
  - apply nodup1.
  - discriminate.
  - apply order_ok1.
  - split; constructor.
  - apply dec1b_pure.
  - apply rec1b_pure.
  - intros t ch Hd E. apply (one_level1_inv t ch Hd E).
  - intros. apply letter1_data; assumption.
  - apply one_level1_pr.
  - intros t ch Hd E. destruct (one_level1_inv t ch Hd E) as (_ & Hax & _). apply crop1_ok; [apply Hd|exact Hax].
  - apply one_synth1_data.
  - apply crop1_data.
  - split; assumption.
Qed.
(** the round trip at the default depth never fails *)
Theorem C55_round_trip_1d h0 x h leaves :
  Forall (op_data (is_data g)) h0 -> wf x -> ttag x = g -> float_tensor x -> axis_ok (rank x) axis ->
  let a := norm_axis (rank x) axis in let J := default_level L (nth a (shp x) 0) in
  1 <= nth a (shp x) 0 -> 1 <= J -> Forall read_op h ->
  (forall p, word ["a"; "d"]%char p -> List.length p = J -> In p leaves) -> Forall (fun p => word ["a"; "d"]%char p /\ List.length p <= J) leaves ->
  exists s1 s2 s3 y, pk_transform Bk (pk_run Bk (pk_new Bk ([], [])) h0) x None = (s1, Ok tt) /\ pk_init Bk (pk_run Bk s1 h) leaves = (s2, Ok tt) /\ pk_reconstruct Bk s2 = (s3, Ok tt) /\
    kget (p_data s3) [] = Some y /\ agrees_on x y /\ shp y = updn a (even_up (nth a (shp x) 0)) (shp x).
Proof.
  intros Hh0 Hw Hg Hf Hax a J Hn HJ Hh Hl Hlv.
  destruct (C54_default_level_1d h0 x [] [] Hh0 Hw Hg Hf Hax Hn) as (s1 & A & Ht & HMx & _). fold a J in HMx.
  assert (Hr : forall h, Forall read_op h -> forall k, In k leaves -> exists v, snd (pk_get Bk (pk_run Bk s1 h) k) = Ok v).
  { intros h' Hh' k Hk. rewrite Forall_forall in Hlv. destruct (Hlv k Hk) as [W1 W2]. destruct (C54_default_level_1d h0 x h' k Hh0 Hw Hg Hf Hax Hn) as (s1' & A' & Ht' & _ & _ & HR').
    rewrite Ht in Ht'. apply (f_equal fst) in Ht'. cbn [fst] in Ht'. subst s1'. eexists. apply HR'; assumption. }
  destruct (init_readable Bk s1 leaves Hr h Hh) as [s2 Hi].
  destruct (C55_reconstruct_1d h0 x None s1 (Z.of_nat J) (h ++ [OInit leaves]) s2 Hh0 Hw Hg Ht HMx) as (s3 & y & R).
  - lia.
  - apply Forall_app. split; [exact Hh|repeat constructor].
  - unfold pk_run. rewrite fold_left_app. exact (f_equal fst Hi).
  - intros p Hp Hlp. apply (init_present Bk leaves _ _ nodup1 Hi). apply Hl; [exact Hp|]. rewrite Nat2Z.id in Hlp. exact Hlp.
  - exists s1, s2, s3, y. split; [exact Ht|]. split; [exact Hi|exact R].
Qed.
(** C56: what was done with the object before does not matter, as long as it was done with one dtype and device *)
Theorem C56_reuse_1d_partial h0 x maxlevel h k : Forall (op_data (is_data g)) h0 -> wf x -> ttag x = g -> Forall read_op h ->
  let used := pk_transform Bk (pk_run Bk (pk_new Bk ([], [])) h0) x maxlevel in let fresh := pk_transform Bk (pk_new Bk ([], [])) x maxlevel in
  snd used = snd fresh /\ (snd fresh = Ok tt -> snd (pk_get Bk (pk_run Bk (fst used) h) k) = snd (pk_get Bk (pk_run Bk (fst fresh) h) k)).
Proof.
  intros Hh0 Hw Hg Hh used fresh. assert (E : snd used = snd fresh /\ (snd fresh = Ok tt -> p_max (fst used) = p_max (fst fresh))).
  { unfold used, fresh, pk_transform. destruct maxlevel as [m|]; [auto|]. destruct (be_maxlevel Bk x); [auto|split; [reflexivity|discriminate]]. }
  destruct E as [E1 E2]. split; [exact E1|]. intros Hok. specialize (E2 Hok).
  assert (Hm : exists m, p_max (fst fresh) = Some m).
  { unfold fresh, pk_transform in Hok |- *. destruct maxlevel as [m|]; [eexists; reflexivity|]. destruct (be_maxlevel Bk x); [eexists; reflexivity|discriminate]. }
  destruct Hm as [m Hm].
  rewrite (C54_reads_1d h0 x maxlevel (fst used) m h k Hh0 Hw Hg); [|unfold used in *; destruct (pk_transform Bk (pk_run Bk (pk_new Bk ([], [])) h0) x maxlevel); cbn [fst snd] in *; congruence|congruence|exact Hh].
  rewrite (C54_reads_1d [] x maxlevel (fst fresh) m h k); [reflexivity|constructor|exact Hw|exact Hg| |exact Hm|exact Hh].
  cbn [pk_run fold_left]. unfold fresh in *. destruct (pk_transform Bk (pk_new Bk ([], [])) x maxlevel). cbn [fst snd] in *. congruence.
Qed.
End OneD.
End Bank.
End PM.
