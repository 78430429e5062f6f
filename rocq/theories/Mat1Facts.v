(** MatrixWavedec / MatrixWaverec: the loops compute the boundary-wavelet transform and invert it. *)
From Coq Require Import List Arith ZArith Lia Bool String Ring.
From Coq Require Import ZifyNat ZifyBool.
From Verif Require Import Base Sums Tensor TensorFacts Util Perm Plumb Spec Conv1 PadFacts CoreFacts Synthesis Filters SepFacts Lin Sparse SparseFacts SparseConv SpecMat SparseMM LinAlg GramSchmidt Mat1 MatOrth Boundary MatPre.
Import ListNotations.
Ltac Zify.zify_post_hook ::= Z.div_mod_to_equations.
Local Arguments Nat.div : simpl never.
Local Arguments Nat.modulo : simpl never.

(** ** the default level *)
Lemma log2_div n d : 0 < d -> d <= n -> 2 ^ Nat.log2 (n / d) * d <= n /\ n < 2 ^ S (Nat.log2 (n / d)) * d.
Proof.
  intros Hd Hn. assert (Hq : 0 < n / d) by (apply Nat.div_str_pos; lia). destruct (Nat.log2_spec _ Hq) as [H1 H2].
  pose proof (Nat.mul_div_le n d ltac:(lia)) as H3. pose proof (Nat.mul_succ_div_gt n d ltac:(lia)) as H4.
  revert H1 H2. generalize (2 ^ Nat.log2 (n / d)) (2 ^ S (Nat.log2 (n / d))). intros a b Ha Hb. split; nia.
Qed.
Lemma mat_level_depth L n lev : 2 <= L -> mat_level L n = Ok lev -> default_depth L [n] (Z.to_nat lev).
Proof.
  unfold mat_level. intros HL. destruct (Nat.eqb_spec n 0) as [|Hn]; [discriminate|]. destruct (Nat.leb_spec (L - 1) n) as [Hle|Hlt]; intros H; injection H as <-.
  - rewrite Nat2Z.id. destruct (log2_div n (L - 1) ltac:(lia) Hle) as [H1 H2]. split; [|split; [intros _|]]; repeat constructor; try assumption. lia.
  - replace (Z.to_nat (- Z.of_nat (Nat.log2 ((L - 1) / n)))) with 0 by lia. split; [|split; [lia|]]; repeat constructor; cbn; lia.
Qed.
Lemma default_depth_unique L s k k' : default_depth L s k -> default_depth L s k' -> k = k'.
Proof.
  intros (_ & A1 & A2) (_ & B1 & B2).
  assert (G : forall a b, (0 < b -> Forall (fun n => 2 ^ b * (L - 1) <= n) s) -> Exists (fun n => n < 2 ^ S a * (L - 1)) s -> a < b -> False).
  { intros a b Hb Ha Hab. specialize (Hb ltac:(lia)). apply Exists_exists in Ha as (n & Hn & Ha). rewrite Forall_forall in Hb. specialize (Hb n Hn).
    pose proof (Nat.pow_le_mono_r 2 (S a) b ltac:(lia) ltac:(lia)). nia. }
  destruct (Nat.lt_trichotomy k k') as [H|[H|H]]; [exfalso; eauto|assumption|exfalso; eauto].
Qed.

Section MF.
Context {K : CRing}.
Add Ring Kring : (cr_th K).
Open Scope K_scope.
Implicit Types (t u x : tensor K) (M : nat -> nat -> K) (w : wavelet K).

Lemma valid2_inv idx a b : valid idx [a; b] -> exists i j, idx = [i; j] /\ (i < a)%nat /\ (j < b)%nat.
Proof.
  intros Hv. destruct idx as [|i [|j [|? ?]]]; inversion Hv as [|? ? ? ? Hi Hv']; subst; inversion Hv' as [|? ? ? ? Hj Hv'']; subst; [|inversion Hv'']. eauto.
Qed.
Lemma shp_tT t a b : shp t = [a; b] -> shp (tT t) = [b; a].
Proof. intros H. apply (transpose2 t a b H). Qed.
Lemma get_tT t a b i j : shp t = [a; b] -> (i < b)%nat -> (j < a)%nat -> get (tT t) [i; j] = get t [j; i].
Proof. intros H Hi Hj. apply (transpose2 t a b H); assumption. Qed.
Lemma wf_tT t : wf (tT t). Proof. apply wf_transpose. Qed.
Lemma ttag_tT t : ttag (tT t) = ttag t. Proof. reflexivity. Qed.
Lemma tT_ext t u a b : shp t = [a; b] -> shp u = [b; a] -> wf u -> ttag u = ttag t -> (forall i j, (i < b)%nat -> (j < a)%nat -> get u [i; j] = get t [j; i]) -> u = tT t.
Proof.
  intros Ht Hu Hw Hg H. apply t_ext; [exact Hw|apply wf_tT|exact Hg|rewrite Hu, (shp_tT t a b Ht); reflexivity|].
  intros idx Hv. rewrite Hu in Hv. destruct (valid2_inv _ _ _ Hv) as (i & j & -> & Hi & Hj). rewrite (get_tT t a b) by assumption. apply H; assumption.
Qed.
Lemma tT_tT t a b : wf t -> shp t = [a; b] -> tT (tT t) = t.
Proof.
  intros Hw Hs. symmetry. apply (tT_ext (tT t) t b a); auto; [apply shp_tT, Hs|]. intros i j Hi Hj. symmetry. apply (get_tT t a b); assumption.
Qed.
Lemma mm_ok (A : smat K) t b n : shp t = [b; n] -> wf t -> s_tag A = ttag t -> s_cols A = n ->
  sp_dense_mm A (tT t) = Ok (tT (mat_axis (mget A) (s_rows A) 1 t)).
Proof.
  intros Hs Hw Ht Hc. rewrite (sp_dense_mm_ok A (tT t) n b); [|apply shp_tT, Hs|exact Ht|exact Hc]. f_equal.
  assert (HM : shp (mat_axis (mget A) (s_rows A) 1 t) = [b; s_rows A]) by (rewrite shp_mat_axis, Hs; reflexivity).
  apply (tT_ext _ _ b (s_rows A)); [exact HM|reflexivity|apply wf_make|reflexivity|].
  intros i j Hi Hj. rewrite get_make by (repeat constructor; assumption). rewrite get_mat_axis by (rewrite Hs; repeat constructor; assumption).
  rewrite Hs. cbn [nth updn]. unfold mat_vec. apply sumf_ext. intros k Hk. rewrite (get_tT t b n) by assumption. reflexivity.
Qed.
Lemma narrow_tT t b n o l : shp t = [b; n] -> (o + l <= n)%nat -> narrow (tT t) 0 o l = tT (narrow t 1 o l).
Proof.
  intros Hs Hl. assert (HN : shp (narrow t 1 o l) = [b; l]) by (rewrite shp_narrow, Hs; reflexivity).
  apply (tT_ext _ _ b l); [exact HN|rewrite shp_narrow, (shp_tT t b n Hs); reflexivity|apply wf_make|reflexivity|].
  intros i j Hi Hj. rewrite get_narrow by (rewrite (shp_tT t b n Hs); repeat constructor; assumption). rewrite get_narrow by (rewrite Hs; repeat constructor; assumption).
  cbn [nth updn]. apply (get_tT t b n); [exact Hs|lia|exact Hj].
Qed.
Lemma split_ok t b h : shp t = [b; (2 * h)%nat] -> (0 < h)%nat -> split_half (tT t) = Ok (tT (narrow t 1 0 h), tT (narrow t 1 h h)).
Proof.
  intros Hs Hh. unfold split_half. rewrite (shp_tT t b (2 * h) Hs). cbn [nth]. replace (2 * h / 2)%nat with h by lia.
  destruct (Nat.eqb_spec h 0); [lia|]. rewrite Nat.eqb_refl. cbn [negb]. rewrite !(narrow_tT t b (2 * h)) by (auto; lia). reflexivity.
Qed.
Lemma cat_ok t b h k : wf t -> shp t = [b; (h + k)%nat] -> cat 0 [tT (narrow t 1 0 h); tT (narrow t 1 h k)] = Ok (tT t).
Proof.
  intros Hw Hs. rewrite <- !(narrow_tT t b (h + k)) by (auto; lia). apply cat_split; [apply wf_tT| |].
  - unfold rank. rewrite (shp_tT t b (h + k) Hs). cbn. lia.
  - rewrite (shp_tT t b (h + k) Hs). reflexivity.
Qed.
(** the even extension in the preprocessed layout *)
Definition evenable (m : mode) (n : nat) : Prop := (n mod 2 = 0)%nat \/ padable m n.
Lemma padable_ext m n : padable m n -> extendable m n.
Proof. destruct m; cbn; intros; auto; lia. Qed.
Lemma ext_even_id m nax x : wf x -> good_axes (rank x) nax -> Forall (fun n => (n mod 2 = 0)%nat) (gather nax 0%nat (shp x)) -> ext_even m nax x = x.
Proof.
  intros Hw Hg He. unfold ext_even, along_axes. rewrite map_even_up_id by exact He.
  assert (Hs : upds nax (gather nax 0%nat (shp x)) (shp x) = shp x) by apply upds_gather.
  apply t_ext; [apply wf_make|exact Hw|reflexivity|exact Hs|]. intros idx Hv. rewrite shp_make, Hs in Hv. rewrite get_make by (rewrite Hs; exact Hv).
  rewrite ext_get_id; [rewrite upds_gather; reflexivity|]. apply valid_gather_sub; [|exact Hv]. intros d Hd. apply Hg in Hd. exact Hd.
Qed.
Lemma pre_ext_even m a x : wf x -> (a < rank x)%nat -> evenable m (nth a (shp x) 0%nat) -> pre_t [a] (ext_even m [a] x) = E m (pre_t [a] x).
Proof.
  intros Hw Ha He. assert (Hg : good_axes (rank x) [a]) by (split; [repeat constructor; intros []|intros d [<-|[]]; exact Ha]).
  destruct He as [He|Hp].
  - rewrite ext_even_id; auto; [|constructor; [exact He|constructor]]. symmetry. apply (E_even m _ (prodl (fsz [a] (shp x))) [nth a (shp x) 0%nat]); [apply pre_t_wf; assumption|reflexivity|]. constructor; [exact He|constructor].
  - unfold ext_even. rewrite (pre_along (map even_up) (fun s X ks => ext_get m s X (map Z.of_nat ks)) [a] x Hw Hg); [reflexivity| |reflexivity].
    intros X X' k Hk H. apply ext_get_ext; [rewrite map_length; exact Hk| |exact H]. constructor; [apply padable_ext, Hp|constructor].
Qed.
Lemma ext_even_E m t b n : wf t -> shp t = [b; n] -> evenable m n -> ext_even m [1%nat] t = E m t.
Proof.
  intros Hw Hs [He|Hp].
  - assert (Hr : rank t = 2%nat) by (unfold rank; rewrite Hs; reflexivity).
    rewrite ext_even_id; auto; [|rewrite Hr; split; [repeat constructor; intros []|intros d [<-|[]]; lia]|rewrite Hs; constructor; [exact He|constructor]].
    symmetry. apply (E_even m t b [n] Hw Hs). constructor; [exact He|constructor].
  - unfold ext_even. change [1%nat] with (seq 1 1). rewrite (core_along (map even_up) (fun s X ks => ext_get m s X (map Z.of_nat ks)) 1 t b [n] Hs); try reflexivity.
    intros X X' k Hk H. apply ext_get_ext; [rewrite map_length; exact Hk| |exact H]. constructor; [apply padable_ext, Hp|constructor].
Qed.
Lemma pre_mat_axis M rows a x : wf x -> (a < rank x)%nat -> pre_t [a] (mat_axis M rows a x) = mat_axis M rows 1 (pre_t [a] x).
Proof.
  intros Hw Ha. assert (Hg : good_axes (rank x) [a]) by (split; [repeat constructor; intros []|intros d [<-|[]]; exact Ha]).
  assert (He : forall n, op_ext [n] (fun s (X : list nat -> K) ks => mat_vec M (nth 0 s 0%nat) (fun j => X [j]) (nth 0 ks 0%nat))).
  { intros n X X' k Hk H. unfold mat_vec. cbn [nth]. apply sumf_ext. intros j Hj. rewrite H; [reflexivity|]. repeat constructor. exact Hj. }
  assert (Hl : shp (pre_t [a] x) = [prodl (fsz [a] (shp x)); nth a (shp x) 0%nat]) by reflexivity.
  unfold mat_axis at 2. change [1%nat] with (seq 1 1).
  rewrite (core_along (fun _ => [rows]) _ 1 (pre_t [a] x) _ _ Hl eq_refl eq_refl (He _)).
  unfold mat_axis. apply (pre_along (fun _ => [rows]) _ [a] x Hw Hg (He _) eq_refl).
Qed.
Lemma pre_bw_lo (A : nat -> nat -> nat -> K) m a x : wf x -> (a < rank x)%nat -> evenable m (nth a (shp x) 0%nat) ->
  pre_t [a] (bw_lo A m a x) = bw_lo A m 1 (pre_t [a] x) /\ pre_t [a] (bw_hi A m a x) = bw_hi A m 1 (pre_t [a] x).
Proof.
  intros Hw Ha He. assert (Hg : good_axes (rank x) [a]) by (split; [repeat constructor; intros []|intros d [<-|[]]; exact Ha]).
  assert (Hr : rank (ext_even m [a] x) = rank x) by apply rank_along.
  assert (Hb : bw_size 1 (pre_t [a] x) = bw_size a x) by reflexivity.
  assert (Hee : ext_even m [1%nat] (pre_t [a] x) = pre_t [a] (ext_even m [a] x)).
  { rewrite pre_ext_even by assumption. apply (ext_even_E m _ (prodl (fsz [a] (shp x))) (nth a (shp x) 0%nat)); [apply pre_t_wf; assumption|reflexivity|exact He]. }
  unfold bw_lo, bw_hi. rewrite Hb, Hee, !pre_mat_axis; try apply wf_make; try (rewrite Hr; exact Ha). split; reflexivity.
Qed.

(** ** the loops *)
Lemma even_up_ge n : (n <= even_up n)%nat. Proof. unfold even_up. lia. Qed.
Fixpoint fitsJ (L J n : nat) : Prop := match J with O => True | S J' => (L <= n)%nat /\ fitsJ L J' (even_up n / 2)%nat end.
Lemma fits_levels L fuel : forall n, fitsJ L (bw_levels fuel L n) n.
Proof.
  induction fuel as [|fuel IH]; intros n; cbn [bw_levels fitsJ]; [exact I|]. destruct (Nat.ltb_spec n L); cbn [fitsJ]; [exact I|]. split; [lia|apply IH].
Qed.
Lemma levels_fits L J : forall n, fitsJ L J n -> bw_levels J L n = J.
Proof.
  induction J as [|J IH]; intros n H; cbn [bw_levels]; [reflexivity|]. destruct H as [H1 H2]. destruct (Nat.ltb_spec n L); [lia|]. rewrite IH by exact H2. reflexivity.
Qed.
Section Loop.
Variables (LA : linalg K) (w : wavelet K) (method : string) (m : mode) (L : nat) (g : tag).
(** the boundary matrices can be built and are orthogonal *)
Definition mats_ok : Prop := forall n, (L <= n)%nat -> (n mod 2 = 0)%nat ->
  exists A, construct_boundary_a LA g w n method = Ok A /\ s_tag A = g /\ s_rows A = n /\ s_cols A = n /\ s_wf A /\ orthogonal n (mget A).
Definition Am (n : nat) : smat K := match construct_boundary_a LA g w n method with Ok a => a | Raise _ => mkS g 0 0 [] end.
Definition Bm (n : nat) : nat -> nat -> K := mget (Am n).
Hypothesis HA : mats_ok.
Hypothesis HL : (2 <= L)%nat.
Hypothesis Hdl : List.length (dec_lo w) = L.
Hypothesis Hrl : List.length (rec_lo w) = L.
Hypothesis Htr : forall n, construct_boundary_s LA g w n method = (let* a := construct_boundary_a LA g w n method in Ok (sp_t a)).
Lemma Am_ok n : (L <= n)%nat -> (n mod 2 = 0)%nat ->
  construct_boundary_a LA g w n method = Ok (Am n) /\ s_tag (Am n) = g /\ s_rows (Am n) = n /\ s_cols (Am n) = n /\ s_wf (Am n) /\ orthogonal n (Bm n).
Proof.
  intros H1 H2. destruct (HA n H1 H2) as (A & EA & H). unfold Bm, Am. rewrite EA. auto.
Qed.
Fixpoint bmats (J n : nat) : list (smat K) := match J with O => [] | S J' => Am (even_up n) :: bmats J' (even_up n / 2) end.
Fixpoint bpads (J n : nat) : list bool := match J with O => [] | S J' => negb (Nat.eqb (n mod 2) 0) :: bpads J' (even_up n / 2) end.
Lemma even_up_if n : (if negb (Nat.eqb (n mod 2) 0) then S n else n) = even_up n.
Proof. unfold even_up. destruct (Nat.eqb_spec (n mod 2) 0); cbn [negb]; lia. Qed.
Lemma build_analysis_eq fuel : forall curr mats pads padded sizes, exists sizes',
  build_analysis LA fuel g w method curr mats pads padded sizes =
    ((mats ++ bmats (bw_levels fuel L curr) curr, pads ++ bpads (bw_levels fuel L curr) curr, padded || existsb (fun b => b) (bpads (bw_levels fuel L curr) curr), sizes'), None).
Proof.
  induction fuel as [|fuel IH]; intros curr mats pads padded sizes; cbn [build_analysis bw_levels bmats bpads existsb].
  - eexists. rewrite !app_nil_r, orb_false_r. reflexivity.
  - rewrite Hdl. destruct (Nat.ltb_spec curr L) as [Hc|Hc]; cbn [bmats bpads existsb].
    + eexists. rewrite !app_nil_r, orb_false_r. reflexivity.
    + cbv zeta. rewrite even_up_if. pose proof (even_up_ge curr). destruct (Am_ok (even_up curr) ltac:(lia) (even_up_even curr)) as (-> & _).
      destruct (IH (even_up curr / 2)%nat (mats ++ [Am (even_up curr)]) (pads ++ [negb (Nat.eqb (curr mod 2) 0)]) (padded || negb (Nat.eqb (curr mod 2) 0)) (sizes ++ [even_up curr])) as [sz Hz].
      exists sz. rewrite Hz, <- !app_assoc. cbn [app]. rewrite orb_assoc. reflexivity.
Qed.
Lemma build_synthesis_eq fuel : forall curr mats padded sizes, exists sizes',
  build_synthesis LA fuel g w method curr mats padded sizes =
    ((mats ++ map sp_t (bmats (bw_levels fuel L curr) curr), padded || existsb (fun b => b) (bpads (bw_levels fuel L curr) curr), sizes'), None).
Proof.
  induction fuel as [|fuel IH]; intros curr mats padded sizes; cbn [build_synthesis bw_levels bmats bpads existsb map].
  - eexists. rewrite !app_nil_r, orb_false_r. reflexivity.
  - rewrite Hrl. destruct (Nat.ltb_spec curr L) as [Hc|Hc]; cbn [bmats bpads existsb map].
    + eexists. rewrite !app_nil_r, orb_false_r. reflexivity.
    + cbv zeta. rewrite even_up_if. pose proof (even_up_ge curr). rewrite Htr. destruct (Am_ok (even_up curr) ltac:(lia) (even_up_even curr)) as (-> & _). cbn [rbind].
      destruct (IH (even_up curr / 2)%nat (mats ++ [sp_t (Am (even_up curr))]) (padded || negb (Nat.eqb (curr mod 2) 0)) (sizes ++ [even_up curr])) as [sz Hz].
      exists sz. rewrite Hz, <- !app_assoc. cbn [app]. rewrite orb_assoc. reflexivity.
Qed.
(** one level, in the layout [batch; n] *)
Definition lo1 t := bw_lo Bm m 1 t.
Definition hi1 t := bw_hi Bm m 1 t.
Definition full1 t := mat_axis (Bm (bw_size 1 t)) (bw_size 1 t) 1 (E m t).
Lemma padable_big n : (2 <= n)%nat -> padable m n.
Proof. destruct m; cbn; lia. Qed.
Section Level.
Variables (t : tensor K) (b n : nat).
Hypothesis (Hw : wf t) (Hs : shp t = [b; n]) (Hn : (L <= n)%nat) (Hg : ttag t = g).
Let Hc : bw_size 1 t = even_up n. Proof. unfold bw_size. rewrite Hs. reflexivity. Qed.
Let HE : ext_even m [1%nat] t = E m t. Proof. apply (ext_even_E m t b n Hw Hs). right. apply padable_big. lia. Qed.
Let HsE : shp (E m t) = [b; even_up n]. Proof. rewrite (shp_E m t b [n] Hs). reflexivity. Qed.
Let Hcg : (L <= even_up n)%nat. Proof. pose proof (even_up_ge n). lia. Qed.
Lemma full1_shp : shp (full1 t) = [b; (2 * (even_up n / 2))%nat].
Proof. unfold full1. rewrite shp_mat_axis, HsE, Hc. cbn [updn]. pose proof (even_up_even n). do 2 f_equal. lia. Qed.
Lemma lo1_full : lo1 t = narrow (full1 t) 1 0 (even_up n / 2).
Proof. unfold full1. rewrite narrow_mat_axis; [|unfold rank; rewrite HsE; cbn; lia|rewrite Hc; lia]. unfold lo1, bw_lo. rewrite HE, Hc. reflexivity. Qed.
Lemma hi1_full : hi1 t = narrow (full1 t) 1 (even_up n / 2) (even_up n / 2).
Proof. unfold full1. pose proof (even_up_even n). rewrite narrow_mat_axis; [|unfold rank; rewrite HsE; cbn; lia|rewrite Hc; lia]. unfold hi1, bw_hi. rewrite HE, Hc. reflexivity. Qed.
Lemma lo1_shp : shp (lo1 t) = [b; (even_up n / 2)%nat].
Proof. rewrite lo1_full, shp_narrow, full1_shp. reflexivity. Qed.
Lemma hi1_shp : shp (hi1 t) = [b; (even_up n / 2)%nat].
Proof. rewrite hi1_full, shp_narrow, full1_shp. reflexivity. Qed.
Lemma ana1 : sp_dense_mm (Am (even_up n)) (tT (E m t)) = Ok (tT (full1 t)).
Proof.
  destruct (Am_ok (even_up n) Hcg (even_up_even n)) as (_ & A1 & A2 & A3 & _). rewrite (mm_ok _ _ b (even_up n) HsE (wf_E _ _)); [|rewrite ttag_E; congruence|exact A3].
  unfold full1. rewrite Hc, A2. reflexivity.
Qed.
Lemma syn1 : sp_dense_mm (sp_t (Am (even_up n))) (tT (full1 t)) = Ok (tT (E m t)).
Proof.
  destruct (Am_ok (even_up n) Hcg (even_up_even n)) as (_ & A1 & A2 & A3 & A4 & _ & A6). pose proof (even_up_even n) as Hev.
  rewrite (mm_ok _ _ b (even_up n)); [| |apply wf_mat_axis|rewrite <- Hg in A1; exact A1|exact A2].
  - f_equal. f_equal. cbn [sp_t s_rows]. rewrite A3. unfold full1. rewrite Hc.
    rewrite (mat_axis_ext _ (fun i j => Bm (even_up n) j i)).
    + apply mat_axis_id; [apply wf_E|unfold rank; rewrite HsE; cbn; lia|rewrite HsE; reflexivity|]. intros i k Hi Hk. apply A6; assumption.
    + rewrite rank_mat_axis. unfold rank. rewrite HsE. cbn. lia.
    + intros i j _ _. apply mget_t.
  - rewrite full1_shp. do 2 f_equal. lia.
Qed.
Lemma pad1 odd : translate_boundary odd = Ok (emode m) ->
  (if negb (Nat.eqb (n mod 2) 0) then let* q := fwt_pad (unsqueeze (tT (tT t)) 1) w odd (Some (0%nat, 1%nat)) in Ok (tT (squeeze q 1)) else Ok (tT t)) = Ok (tT (E m t)).
Proof.
  intros Ho. destruct (Nat.eqb_spec (n mod 2) 0) as [He|He]; cbn [negb].
  - rewrite (E_even m t b [n] Hw Hs); [reflexivity|constructor; [exact He|constructor]].
  - rewrite (tT_tT t b n Hw Hs). unfold fwt_pad. rewrite Ho. cbn [rbind]. destruct (E_pad_unsq m t b n Hw Hs (padable_big n ltac:(lia))) as (q & Hq & Hsq).
    replace (n mod 2)%nat with 1%nat in Hq by lia. rewrite Hq. cbn [rbind]. rewrite Hsq. reflexivity.
Qed.
End Level.
Lemma iter_r {X} (f : X -> X) k y : Nat.iter (S k) f y = Nat.iter k f (f y).
Proof. induction k as [|k IH]; [reflexivity|]. change (f (Nat.iter (S k) f y) = f (Nat.iter k f (f y))). rewrite IH. reflexivity. Qed.
Definition apx1 (j : nat) t : tensor K := bw_approx Bm m 1 j t.
Definition dets1 (J : nat) t : list (tensor K) := map (fun j => hi1 (apx1 j t)) (seq 0 J).
Lemma apx1_S j t : apx1 (S j) t = apx1 j (lo1 t).
Proof. unfold apx1, bw_approx. apply iter_r. Qed.
Lemma dets1_S J t : dets1 (S J) t = hi1 t :: dets1 J (lo1 t).
Proof. unfold dets1. cbn [seq map]. f_equal. rewrite <- seq_shift, map_map. apply map_ext. intros j. rewrite apx1_S. reflexivity. Qed.
Lemma mw_loop_ok odd : translate_boundary odd = Ok (emode m) -> forall J t b n acc, wf t -> shp t = [b; n] -> ttag t = g -> fitsJ L J n ->
  mw_loop w odd (bmats J n) (bpads J n) (tT t) acc = Ok (acc ++ map tT (dets1 J t) ++ [tT (apx1 J t)]).
Proof.
  intros Ho. induction J as [|J IH]; intros t b n acc Hw Hs Hg Hf; cbn [bmats bpads mw_loop].
  - reflexivity.
  - destruct Hf as [Hn Hf]. rewrite (pad1 t b n Hw Hs Hn odd Ho). cbn [rbind]. rewrite (ana1 t b n Hs Hn Hg). cbn [rbind].
    rewrite (split_ok (full1 t) b (even_up n / 2)); [|apply (full1_shp t b n Hs Hn)|pose proof (even_up_ge n); lia]. cbn [rbind fst snd].
    rewrite <- (lo1_full t b n Hw Hs Hn), <- (hi1_full t b n Hw Hs Hn).
    rewrite (IH (lo1 t) b (even_up n / 2)%nat); [|apply wf_mat_axis|apply (lo1_shp t b n Hw Hs Hn)|exact Hg|exact Hf].
    rewrite dets1_S, apx1_S. cbn [map]. rewrite <- app_assoc. reflexivity.
Qed.
Definition crop_next (r : tensor K) (hs : list (tensor K)) : result (tensor K) :=
  match hs with
  | [] => Ok r
  | nxt :: _ => if Nat.eqb (nth 0 (shp nxt) 0%nat) (nth 0 (shp r) 0%nat) then Ok r
                else let q := slice_dropend r 0 1 in if Nat.eqb (nth 0 (shp q) 0%nat) (nth 0 (shp nxt) 0%nat) then Ok q else Raise AssertionError
  end.
Lemma crop1 t b n h hs : wf t -> shp t = [b; n] -> shp h = [b; n] -> crop_next (tT (E m t)) (tT h :: hs) = Ok (tT t).
Proof.
  intros Hw Hs Hh. unfold crop_next. pose proof (shp_E m t b [n] Hs) as HsE. cbn [map] in HsE. rewrite (shp_tT h b n Hh), (shp_tT _ b (even_up n) HsE). cbn [nth].
  destruct (Nat.eqb_spec n (even_up n)) as [He|He].
  - rewrite (E_even m t b [n] Hw Hs); [reflexivity|constructor; [rewrite He; apply even_up_even|constructor]].
  - assert (Heu : even_up n = S n) by (unfold even_up in *; lia). unfold slice_dropend. cbv zeta. rewrite (shp_tT _ b (even_up n) HsE), Heu. cbn [nth]. replace (S n - 1)%nat with n by lia.
    rewrite shp_narrow, (shp_tT _ b (even_up n) HsE). cbn [updn nth]. rewrite Nat.eqb_refl. f_equal.
    rewrite (narrow_tT _ b (even_up n)); [|exact HsE|lia]. f_equal.
    apply t_ext; [apply wf_make|exact Hw|reflexivity|rewrite shp_narrow, HsE, Hs; reflexivity|].
    intros idx Hv. rewrite shp_narrow, HsE in Hv. cbn [updn] in Hv. rewrite get_narrow by (rewrite HsE; exact Hv).
    rewrite Nat.add_0_r, updn_same.
    apply (E_agrees m t b [n] idx Hs). rewrite Hs. exact Hv.
Qed.
Lemma mr_loop_cons s rs lo hi hs : mr_loop (s :: rs) lo (hi :: hs) =
  if negb (eqidx (shp lo) (shp hi)) then Raise ValueError else
  let* c := cat 0 [lo; hi] in let* r := sp_dense_mm s c in let* r' := crop_next r hs in mr_loop rs r' hs.
Proof. reflexivity. Qed.
Lemma mr_loop_ok : forall J t b n rs hs, wf t -> shp t = [b; n] -> ttag t = g -> fitsJ L J n ->
  mr_loop (rev (map sp_t (bmats J n)) ++ rs) (tT (apx1 J t)) (map tT (rev (dets1 J t)) ++ hs) =
  (let* r := (match J with O => Ok (tT t) | _ => crop_next (tT (E m t)) hs end) in mr_loop rs r hs).
Proof.
  induction J as [|J IH]; intros t b n rs hs Hw Hs Hg Hf; [reflexivity|]. destruct Hf as [Hn Hf].
  cbn [bmats map rev]. rewrite dets1_S, apx1_S. cbn [rev]. rewrite map_app, <- !app_assoc. cbn [map app].
  pose proof (lo1_shp t b n Hw Hs Hn) as Hlo. pose proof (hi1_shp t b n Hw Hs Hn) as Hhi.
  rewrite (IH (lo1 t) b (even_up n / 2)%nat); [|apply wf_mat_axis|exact Hlo|exact Hg|exact Hf].
  assert (Hr : (match J with O => Ok (tT (lo1 t)) | S _ => crop_next (tT (E m (lo1 t))) (tT (hi1 t) :: hs) end) = Ok (tT (lo1 t))).
  { destruct J; [reflexivity|]. apply (crop1 _ b (even_up n / 2)%nat); [apply wf_mat_axis|exact Hlo|exact Hhi]. }
  rewrite Hr. cbn [rbind]. rewrite mr_loop_cons. rewrite (shp_tT _ _ _ Hlo), (shp_tT _ _ _ Hhi), (proj2 (eqidx_spec _ _) eq_refl). cbn [negb].
  rewrite (lo1_full t b n Hw Hs Hn), (hi1_full t b n Hw Hs Hn). rewrite (cat_ok (full1 t) b); [|apply wf_mat_axis|rewrite (full1_shp t b n Hs Hn); do 2 f_equal; lia].
  cbn [rbind]. rewrite (syn1 t b n Hs Hn Hg). reflexivity.
Qed.
Lemma mr_loop_full J t b n : wf t -> shp t = [b; n] -> ttag t = g -> fitsJ L J n ->
  mr_loop (rev (map sp_t (bmats J n))) (tT (apx1 J t)) (map tT (rev (dets1 J t))) = Ok (tT (if Nat.eqb J 0 then t else E m t)).
Proof.
  intros Hw Hs Hg Hf. pose proof (mr_loop_ok J t b n [] [] Hw Hs Hg Hf) as H. rewrite !app_nil_r in H. rewrite H. destruct J; reflexivity.
Qed.
End Loop.
End MF.
