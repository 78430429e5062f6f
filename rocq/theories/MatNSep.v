(** The separable boundary transforms in two and three dimensions: one level and the loops, in the folded layout. *)
From Coq Require Import List Arith ZArith Lia Bool String Ring.
From Coq Require Import ZifyNat ZifyBool.
From Verif Require Import Base Sums Tensor TensorFacts Util Perm Plumb Accept Spec Conv1 Conv2 PadFacts CoreFacts Synthesis Filters Wave1 Sep SepFacts SepRec2 SepRec3 Lin Sparse SparseFacts SpecMat SpecMatN SparseMM LinAlg GramSchmidt MatOrth Boundary Mat1 MatN MatPre Mat1Facts MatNFacts MatNLoop.
Import ListNotations.
Ltac Zify.zify_post_hook ::= Z.div_mod_to_equations.
Local Arguments Nat.div : simpl never.
Local Arguments Nat.modulo : simpl never.
Local Arguments Nat.eqb : simpl never.

Lemma padable2n m n : 2 <= n -> padable m n. Proof. destruct m; cbn; lia. Qed.
Lemma Forall2_inv {A} (P : A -> Prop) a b : Forall P [a; b] -> P a /\ P b.
Proof. intros H. inversion H as [|? ? Ha H']; subst. inversion H'; subst. auto. Qed.
Lemma Forall3_inv {A} (P : A -> Prop) a b c : Forall P [a; b; c] -> P a /\ P b /\ P c.
Proof. intros H. inversion H as [|? ? Ha H']; subst. apply Forall2_inv in H'. tauto. Qed.

Section NS.
Context {K : CRing}.
Add Ring Kring : (cr_th K).
Open Scope K_scope.
Implicit Types (t u x : tensor K).

Lemma transpose12 t a b c : shp t = [a; b; c] -> shp (transpose t 1 2) = [a; c; b] /\ forall i j k, (i < a)%nat -> (j < c)%nat -> (k < b)%nat -> get (transpose t 1 2) [i; j; k] = get t [i; k; j].
Proof.
  intros Hs. assert (Hr : rank t = 3%nat) by (unfold rank; rewrite Hs; reflexivity). unfold transpose. rewrite Hr. cbn [seq map]. change (swapn 1 2 0) with 0%nat. change (swapn 1 2 1) with 2%nat. change (swapn 1 2 2) with 1%nat. split.
  - unfold permute_nat. rewrite shp_make. unfold gather. rewrite Hs. reflexivity.
  - intros i j k Hi Hj Hk. assert (HP : is_perm [0; 2; 1]%nat (rank t)) by (rewrite Hr; exact (swap_perm 1 2 3 ltac:(lia) ltac:(lia))).
    rewrite get_permute'; [reflexivity|exact HP|]. rewrite Hs. repeat constructor; assumption.
Qed.
Lemma transpose12_invol t a b c : wf t -> shp t = [a; b; c] -> transpose (transpose t 1 2) 1 2 = t.
Proof.
  intros Hw Hs. destruct (transpose12 t a b c Hs) as [S1 G1]. destruct (transpose12 (transpose t 1 2) a c b S1) as [S2 G2].
  apply t_ext; [apply wf_transpose|exact Hw|reflexivity|congruence|]. intros idx Hv. rewrite S2 in Hv. destruct (valid3_inv _ _ _ _ Hv) as (i & j & k & -> & Hi & Hj & Hk).
  rewrite G2, G1 by assumption. reflexivity.
Qed.
Lemma transpose12_mat (A : nat -> nat -> K) r t a b c : shp t = [a; b; c] -> mat_axis A r 1 (transpose t 1 2) = transpose (mat_axis A r 2 t) 1 2.
Proof.
  intros Hs. destruct (transpose12 t a b c Hs) as [S1 G1]. assert (S2 : shp (mat_axis A r 2 t) = [a; b; r]) by (rewrite shp_mat_axis, Hs; reflexivity).
  destruct (transpose12 _ a b r S2) as [S3 G3].
  apply t_ext; [apply wf_mat_axis|apply wf_transpose|reflexivity|rewrite shp_mat_axis, S1, S3; reflexivity|].
  intros idx Hv. rewrite shp_mat_axis, S1 in Hv. cbn [updn] in Hv. destruct (valid3_inv _ _ _ _ Hv) as (i & j & k & -> & Hi & Hj & Hk).
  rewrite G3 by assumption. rewrite !get_mat_axis by (rewrite ?S1, ?Hs; repeat constructor; assumption). rewrite S1, Hs. cbn [nth updn]. unfold mat_vec. apply sumf_ext. intros q Hq. rewrite G1 by assumption. reflexivity.
Qed.

Lemma sq_at (A : nat -> nat -> nat -> K) a t n : nth a (shp t) 0%nat = n -> sq A a t = mat_axis (A n) n a t.
Proof. intros <-. reflexivity. Qed.
(** ** products with square matrices of the right sizes *)
Section G.
Variables (L : nat) (g : tag) (G : nat -> smat K).
Hypothesis HG : forall n, (L <= n)%nat -> (n mod 2 = 0)%nat -> s_tag (G n) = g /\ s_rows (G n) = n /\ s_cols (G n) = n.
Hypothesis HL : (2 <= L)%nat.
Let B (n : nat) : nat -> nat -> K := mget (G n).
Lemma mm2_ok t b h w : shp t = [b; h; w] -> wf t -> ttag t = g -> (0 < b)%nat -> (L <= h)%nat -> (L <= w)%nat -> (h mod 2 = 0)%nat -> (w mod 2 = 0)%nat ->
  (let* u := batch_mm (G w) (transpose t 1 2) in batch_mm (G h) (transpose u 1 2)) = Ok (sqs B (axesN 2) t).
Proof.
  intros Hs Hw Hg Hb Hh1 Hw1 Hh2 Hw2. destruct (HG w Hw1 Hw2) as (W1 & W2 & W3). destruct (HG h Hh1 Hh2) as (H1 & H2 & H3).
  destruct (transpose12 t b h w Hs) as [S1 _].
  rewrite (batch_mm_ok _ _ b w h S1 (wf_transpose t 1 2)); [|rewrite W1; symmetry; exact Hg|exact W3|lia|exact Hb|lia]. cbn [rbind]. rewrite W2.
  rewrite (transpose12_mat _ w t b h w Hs). assert (S2 : shp (mat_axis (mget (G w)) w 2 t) = [b; h; w]) by (rewrite shp_mat_axis, Hs; reflexivity).
  rewrite (transpose12_invol _ b h w (wf_mat_axis _ _ _ _) S2).
  rewrite (batch_mm_ok _ _ b h w S2 (wf_mat_axis _ _ _ _)); [|rewrite H1; symmetry; exact Hg|exact H3|lia|exact Hb|lia]. rewrite H2. f_equal.
  change (sqs B (axesN 2) t) with (sq B 1 (sq B 2 t)). rewrite (sq_at B 1 _ h) by (rewrite shp_sq, Hs; reflexivity). rewrite (sq_at B 2 _ w) by (rewrite Hs; reflexivity). reflexivity.
Qed.
Lemma mm3_ok t b n1 n2 n3 : shp t = [b; n1; n2; n3] -> wf t -> ttag t = g -> (L <= n1)%nat -> (L <= n2)%nat -> (L <= n3)%nat -> (n1 mod 2 = 0)%nat -> (n2 mod 2 = 0)%nat -> (n3 mod 2 = 0)%nat ->
  mats_dims (rev [G n1; G n2; G n3]) t 1 = Ok (sqs B (axesN 3) t).
Proof.
  intros Hs Hw Hg L1 L2 L3 E1 E2 E3. destruct (HG n1 L1 E1) as (A1 & A2 & A3). destruct (HG n2 L2 E2) as (B1 & B2 & B3). destruct (HG n3 L3 E3) as (C1 & C2 & C3).
  assert (Hone : forall n a u, (L <= n)%nat -> (n mod 2 = 0)%nat -> shp u = shp t -> wf u -> ttag u = g -> (a < 4)%nat -> nth a (shp t) 0%nat = n -> batch_dim_mm (G n) u a = Ok (sq B a u)).
  { intros n a u Hn1 Hn2 Hu Hwu Htu Ha Hn. destruct (HG n Hn1 Hn2) as (X1 & X2 & X3). rewrite batch_dim_mm_ok; auto; try congruence; [|unfold rank; rewrite Hu, Hs; exact Ha|lia].
    unfold sq. rewrite Hu, Hn, X2. reflexivity. }
  cbn [rev app mats_dims]. assert (Hr : rank t = 4%nat) by (unfold rank; rewrite Hs; reflexivity). rewrite Hr. change (4 - 1)%nat with 3%nat.
  rewrite (Hone n3 3%nat t) by (first [assumption|lia|reflexivity|apply wf_mat_axis|rewrite ?shp_sq; reflexivity|rewrite Hs; reflexivity]). cbn [rbind]. rewrite rank_sq, Hr. change (4 - 2)%nat with 2%nat.
  rewrite (Hone n2 2%nat (sq B 3 t)) by (first [assumption|lia|reflexivity|apply wf_mat_axis|rewrite ?shp_sq; reflexivity|rewrite Hs; reflexivity]). cbn [rbind]. rewrite !rank_sq, Hr. change (4 - 3)%nat with 1%nat.
  rewrite (Hone n1 1%nat (sq B 2 (sq B 3 t))) by (first [assumption|lia|reflexivity|apply wf_mat_axis|rewrite ?shp_sq; reflexivity|rewrite Hs; reflexivity]). reflexivity.
Qed.
End G.

Lemma E_slice m t b s : wf t -> shp t = b :: s -> slice_to (E m t) (shp t) = Ok t.
Proof.
  intros Hw Hs. unfold slice_to. pose proof (shp_E m t b s Hs) as HE.
  assert (Hl : List.length (shp (E m t)) = List.length (shp t)) by (rewrite HE, Hs; cbn [List.length]; rewrite map_length; reflexivity).
  destruct (Nat.ltb_spec (rank (E m t)) (List.length (shp t))) as [H|_]; [unfold rank in H; lia|].
  rewrite <- Hl at 1. rewrite skipn_all, app_nil_r. assert (Hm : map2 Nat.min (shp t) (shp (E m t)) = shp t).
  { rewrite HE, Hs. cbn [map2]. rewrite Nat.min_id. f_equal. clear. induction s as [|n s IH]; cbn [map map2]; [reflexivity|]. rewrite IH. f_equal. pose proof (even_up_ge n). lia. }
  rewrite Hm. f_equal. rewrite ttag_E. transitivity (tmake (ttag t) (shp t) (get t)); [|apply make_get, Hw]. apply make_ext. intros idx Hv. apply (E_agrees m t b s idx Hs Hv).
Qed.
Lemma E_crop1 m t b h w : wf t -> shp t = [b; h; w] -> crop2 (E m t) [even_up h; even_up w] [h; w] = t.
Proof.
  intros Hw Hs. pose proof (shp_E m t b _ Hs) as HE. cbn [map] in HE. unfold crop2. cbn [nth].
  set (r1 := if Nat.eqb (even_up h) h then E m t else slice_dropend (E m t) 1 1).
  assert (R1 : shp r1 = [b; h; even_up w] /\ ttag r1 = ttag t /\ wf r1 /\ forall idx, valid idx [b; h; even_up w] -> get r1 idx = get (E m t) idx).
  { unfold r1. destruct (Nat.eqb_spec (even_up h) h) as [Eh|Eh].
    - rewrite HE, Eh. split; [reflexivity|]. split; [reflexivity|]. split; [apply wf_E|]. auto.
    - assert (Eh' : (even_up h - 1)%nat = h) by (unfold even_up in *; lia). unfold slice_dropend. cbv zeta. rewrite HE. cbn [nth]. rewrite Eh', shp_narrow, HE. split; [reflexivity|]. split; [reflexivity|]. split; [apply wf_make|].
      intros idx Hv. rewrite get_narrow by (rewrite HE; exact Hv). rewrite Nat.add_0_r, updn_same. reflexivity. }
  destruct R1 as (S1 & T1 & W1 & G1).
  assert (Hv1 : forall idx, valid idx [b; h; w] -> valid idx [b; h; even_up w]).
  { intros idx Hv. destruct (valid3_inv _ _ _ _ Hv) as (i & j & k & -> & Hi & Hj & Hk). pose proof (even_up_ge w). valids. }
  destruct (Nat.eqb_spec (even_up w) w) as [Ew|Ew].
  - apply t_ext; [exact W1|exact Hw|exact T1|rewrite S1, Hs, Ew; reflexivity|]. intros idx Hv. rewrite S1, Ew in Hv. rewrite G1 by (apply Hv1; exact Hv). apply (E_agrees m t b [h; w] idx Hs). rewrite Hs. exact Hv.
  - assert (Ew' : (even_up w - 1)%nat = w) by (unfold even_up in *; lia). unfold slice_dropend. cbv zeta. rewrite S1. cbn [nth]. rewrite Ew'.
    apply t_ext; [apply wf_make|exact Hw|exact T1|rewrite shp_narrow, S1, Hs; reflexivity|]. intros idx Hv. rewrite shp_narrow, S1 in Hv. cbn [updn] in Hv.
    rewrite get_narrow by (rewrite S1; exact Hv). rewrite Nat.add_0_r, updn_same. rewrite G1 by (apply Hv1; exact Hv). apply (E_agrees m t b [h; w] idx Hs). rewrite Hs. exact Hv.
Qed.

Section Sep.
Variables (LA : linalg K) (w : wavelet K) (method : string) (m : mode) (L : nat) (g : tag).
Hypothesis HA : mats_ok LA w method L g.
Hypothesis HL : (2 <= L)%nat.
Hypothesis Hdl : List.length (dec_lo w) = L.
Hypothesis Hrl : List.length (rec_lo w) = L.
Hypothesis Htr : forall n, construct_boundary_s LA g w n method = (let* a := construct_boundary_a LA g w n method in Ok (sp_t a)).
Notation Am := (Am LA w method g).
Notation A := (Bm LA w method g).
Notation bd := (bandc (tprod A) m).
Definition lmS (s : list nat) : list (smat K) := map Am s.
Lemma lmS_a s : Forall (fun n => (L <= n)%nat) s -> Forall (fun n => (n mod 2 = 0)%nat) s -> level_mats_a LA true g w method s = Ok (lmS s).
Proof.
  intros H1 H2. unfold level_mats_a, lmS. apply rmap_ok. intros n Hn. rewrite Forall_forall in H1, H2. apply (Am_ok LA w method L g HA n (H1 n Hn) (H2 n Hn)).
Qed.
Lemma lmS_s s : Forall (fun n => (L <= n)%nat) s -> Forall (fun n => (n mod 2 = 0)%nat) s -> level_mats_s LA true g w method s = Ok (map sp_t (lmS s)).
Proof.
  intros H1 H2. unfold level_mats_s, lmS. rewrite map_map. apply (rmap_ok _ (fun n => sp_t (Am n))). intros n Hn. rewrite Forall_forall in H1, H2. rewrite Htr.
  rewrite (proj1 (Am_ok LA w method L g HA n (H1 n Hn) (H2 n Hn))). reflexivity.
Qed.
Lemma Am_shape n : (L <= n)%nat -> (n mod 2 = 0)%nat -> s_tag (Am n) = g /\ s_rows (Am n) = n /\ s_cols (Am n) = n.
Proof. intros H1 H2. destruct (Am_ok LA w method L g HA n H1 H2) as (_ & X1 & X2 & X3 & _). auto. Qed.
Lemma St_shape n : (L <= n)%nat -> (n mod 2 = 0)%nat -> s_tag (sp_t (Am n)) = g /\ s_rows (sp_t (Am n)) = n /\ s_cols (sp_t (Am n)) = n.
Proof. intros H1 H2. destruct (Am_ok LA w method L g HA n H1 H2) as (_ & X1 & X2 & X3 & _). auto. Qed.
Lemma syn_inverse N t b s : shp t = b :: s -> List.length s = N -> Forall (fun n => (L <= n)%nat) s ->
  sqs (fun n => mget (sp_t (Am n))) (axesN N) (fullN A m N t) = E m t.
Proof.
  intros Hs Hl Hf. apply (fullN_inverse A _ m N t b s Hs Hl). apply Forall_forall. intros c Hc. pose proof (Forall_ge_up L s Hf) as H1. pose proof (Forall_even_up s) as H2. rewrite Forall_forall in H1, H2.
  destruct (Am_ok LA w method L g HA c (H1 c Hc) (H2 c Hc)) as (_ & _ & _ & _ & _ & _ & Ho). intros i k Hi Hk.
  rewrite <- (Ho i k Hi Hk). unfold dot. apply sumf_ext. intros j Hj. rewrite mget_t. reflexivity.
Qed.

(** *** two dimensions *)
Lemma add_padding_ok odd t b h v : translate_boundary odd = Ok (emode m) -> wf t -> shp t = [b; h; v] -> (2 <= h)%nat -> (2 <= v)%nat ->
  add_padding w odd t (map isodd [h; v]) = Ok (E m t).
Proof.
  intros Ho Hw Hs H1 H2. unfold add_padding. destruct (existsb (fun b => b) (map isodd [h; v])) eqn:Ex.
  - unfold fwt_pad_n. rewrite Ho. cbn [rbind]. rewrite pads_of_ev. apply (E_pad m t b [h; v] Hw Hs); [cbn; lia|]. repeat constructor; apply padable2n; assumption.
  - rewrite (E_even m t b [h; v] Hw Hs); [reflexivity|]. apply no_odd, Ex.
Qed.
Lemma mw2_step_ok odd t b h v : translate_boundary odd = Ok (emode m) -> wf t -> shp t = [b; h; v] -> ttag t = g -> (0 < b)%nat -> (L <= h)%nat -> (L <= v)%nat ->
  mw2_step w odd (lmS (map even_up [h; v])) (map isodd [h; v]) (map even_up [h; v]) t = Ok (bd bLL t, [bd bLH t; bd bHL t; bd bHH t]).
Proof.
  intros Ho Hw Hs Hg Hb H1 H2. unfold mw2_step, lmS. cbn [map]. change [isodd h; isodd v] with (map isodd [h; v]). rewrite (add_padding_ok odd t b h v Ho Hw Hs) by lia. cbn [rbind].
  pose proof (shp_E m t b _ Hs) as HE. cbn [map] in HE. pose proof (even_up_ge h). pose proof (even_up_ge v). pose proof (even_up_even h) as Eh. pose proof (even_up_even v) as Ev.
  pose proof (mm2_ok L g Am Am_shape HL (E m t) b (even_up h) (even_up v) HE (wf_E m t) Hg Hb ltac:(lia) ltac:(lia) Eh Ev) as HM.
  pose proof (shp_fullN A m 2 t b _ Hs) as HF. cbn [map] in HF. change (sqs _ (axesN 2) (E m t)) with (fullN A m 2 t) in HM.
  destruct (batch_mm (Am (even_up v)) (transpose (E m t) 1 2)) as [u|e]; [|discriminate]. cbn [rbind] in HM |- *. rewrite HM. cbn [rbind nth].
  rewrite (blk_split _ 1); try (rewrite HF; cbn [nth]; auto; lia). cbn [rbind fst snd].
  rewrite !(blk_split _ 2); try (unfold blk; rewrite shp_narrow, HF; cbn [nth updn]; auto; lia). cbn [rbind fst snd].
  rewrite !(band2 A m t b h v _ _ Hs). reflexivity.
Qed.
Definition dets2 t : pyval K := PTup (map (fun k => bd k t) [bLH; bHL; bHH]).
Lemma seq_S_map {X} (f : nat -> X) J : map f (rev (seq 0 (S J))) = map (fun j => f (S j)) (rev (seq 0 J)) ++ [f 0%nat].
Proof. cbn [seq rev]. rewrite map_app. cbn [map]. f_equal. rewrite <- seq_shift, <- map_rev, map_map. reflexivity. Qed.
Lemma lo_S J t : Nat.iter (S J) (bd bLL) t = Nat.iter J (bd bLL) (bd bLL t).
Proof. apply iter_r. Qed.
Lemma mw2_loop_ok odd : translate_boundary odd = Ok (emode m) -> forall J t b h v rest acc, wf t -> shp t = [b; h; v] -> ttag t = g -> ((0 < J)%nat -> (0 < b)%nat) -> fitsN L J [h; v] ->
  mw2_loop w odd (bmatsN lmS J [h; v]) (bpadsN J [h; v]) (bsizesN J [h; v] ++ rest) t acc = Ok (Nat.iter J (bd bLL) t, map (fun j => dets2 (Nat.iter j (bd bLL) t)) (rev (seq 0 J)) ++ acc).
Proof.
  intros Ho. induction J as [|J IH]; intros t b h v rest acc Hw Hs Hg Hb Hf; [reflexivity|]. destruct Hf as [Hn Hf]. apply Forall2_inv in Hn as [H1 H2].
  cbn [bmatsN bpadsN bsizesN mw2_loop app]. rewrite (mw2_step_ok odd t b h v Ho Hw Hs Hg (Hb ltac:(lia)) H1 H2). cbn [rbind fst snd map].
  rewrite (IH (bd bLL t) b (half_up h) (half_up v)); [|apply wf_core|apply (shp_bandc (tprod A) m bLL t b [h; v] Hs)|exact Hg|intros _; apply Hb; lia|exact Hf].
  rewrite lo_S, seq_S_map, <- app_assoc. cbn [app]. do 2 f_equal. f_equal. apply map_ext. intros j. rewrite lo_S. reflexivity.
Qed.
Lemma mr2_level_ok t b h v : wf t -> shp t = [b; h; v] -> ttag t = g -> (0 < b)%nat -> (L <= h)%nat -> (L <= v)%nat ->
  mr2_level true (map sp_t (lmS (map even_up [h; v]))) (bd bLL t) (bd bLH t) (bd bHL t) (bd bHH t) = Ok (E m t).
Proof.
  intros Hw Hs Hg Hb H1 H2. unfold mr2_level, lmS. cbn [map]. pose proof (shp_fullN A m 2 t b _ Hs) as HF. cbn [map] in HF.
  pose proof (even_up_ge h). pose proof (even_up_ge v). pose proof (even_up_even h) as Eh. pose proof (even_up_even v) as Ev.
  unfold bLL, bLH, bHL, bHH. rewrite <- !(band2 A m t b h v _ _ Hs). set (F := fullN A m 2 t) in *.
  assert (HwF : wf F) by (apply wf_sqs, wf_E).
  assert (Sb : forall d, shp (blk F 1 d) = [b; (even_up h / 2)%nat; even_up v]) by (intros d; unfold blk; rewrite shp_narrow, HF; reflexivity).
  rewrite (blk_cat (blk F 1 false) 2); [|apply wf_make|unfold rank; rewrite Sb; cbn; lia|rewrite Sb; exact Ev]. cbn [rbind].
  rewrite (blk_cat (blk F 1 true) 2); [|apply wf_make|unfold rank; rewrite Sb; cbn; lia|rewrite Sb; exact Ev]. cbn [rbind].
  rewrite (blk_cat F 1); [|exact HwF|unfold rank; rewrite HF; cbn; lia|rewrite HF; exact Eh]. cbn [rbind].
  rewrite (mm2_ok L g (fun n => sp_t (Am n)) St_shape HL F b (even_up h) (even_up v) HF HwF) by (first [assumption|lia]).
  f_equal. apply (syn_inverse 2 t b [h; v] Hs eq_refl). repeat constructor; assumption.
Qed.
Definition crop_next2 (r : tensor K) (pred : list nat) (his : list (pyval K)) : result (tensor K) :=
  match his with [] => Ok r | nxt :: _ => let* nl := head_shape nxt in Ok (crop2 r pred nl) end.
Lemma mr2_loop_cons sep s_ rmats ll lh hl hh his : mr2_loop sep (s_ :: rmats) ll (PTup [lh; hl; hh] :: his) =
  if negb (forallb (fun c => list_eqb Nat.eqb (shp c) (shp ll)) [lh; hl; hh]) then Raise ValueError else
  let* r := mr2_level sep s_ ll lh hl hh in let* r' := crop_next2 r (map (fun n => n * 2)%nat (last2 (shp ll))) his in mr2_loop sep rmats r' his.
Proof. reflexivity. Qed.
Lemma leqb_refl (l : list nat) : list_eqb Nat.eqb l l = true.
Proof. change (list_eqb Nat.eqb l l) with (eqidx l l). apply eqidx_spec. reflexivity. Qed.
Lemma crop_next2_E t b h v d his : wf t -> shp t = [b; h; v] -> shp d = [b; h; v] -> forall ds, crop_next2 (E m t) [even_up h; even_up v] (PTup (d :: ds) :: his) = Ok t.
Proof.
  intros Hw Hs Hd ds. unfold crop_next2. cbn [head_shape rbind]. rewrite Hd. cbn [last2 List.length skipn Nat.sub]. rewrite (E_crop1 m t b h v Hw Hs). reflexivity.
Qed.
Lemma mr2_loop_ok : forall J t b h v rs his, wf t -> shp t = [b; h; v] -> ttag t = g -> ((0 < J)%nat -> (0 < b)%nat) -> fitsN L J [h; v] ->
  mr2_loop true (rev (map (map sp_t) (bmatsN lmS J [h; v])) ++ rs) (Nat.iter J (bd bLL) t) (map (fun j => dets2 (Nat.iter j (bd bLL) t)) (rev (seq 0 J)) ++ his) =
  (let* r := (match J with O => Ok t | _ => crop_next2 (E m t) [even_up h; even_up v] his end) in mr2_loop true rs r his).
Proof.
  induction J as [|J IH]; intros t b h v rs his Hw Hs Hg Hb Hf; [reflexivity|]. destruct Hf as [Hn Hf]. apply Forall2_inv in Hn as [H1 H2].
  cbn [bmatsN map rev]. rewrite lo_S, seq_S_map, <- !app_assoc. cbn [app].
  assert (Sd : forall k, shp (bd k t) = [b; half_up h; half_up v]) by (intros k; apply (shp_bandc (tprod A) m k t b [h; v] Hs)).
  rewrite (map_ext (fun j => dets2 (Nat.iter (S j) (bd bLL) t)) (fun j => dets2 (Nat.iter j (bd bLL) (bd bLL t)))) by (intros j; rewrite lo_S; reflexivity).
  rewrite (IH (bd bLL t) b (half_up h) (half_up v)); [|apply wf_core|apply Sd|exact Hg|intros _; apply Hb; lia|exact Hf].
  assert (Hr : (match J with O => Ok (bd bLL t) | S _ => crop_next2 (E m (bd bLL t)) [even_up (half_up h); even_up (half_up v)] (dets2 t :: his) end) = Ok (bd bLL t)).
  { destruct J; [reflexivity|]. unfold dets2. cbn [map]. apply (crop_next2_E (bd bLL t) b (half_up h) (half_up v)); [apply wf_core|apply Sd|apply Sd]. }
  cbn [Nat.iter nat_rect]. rewrite Hr. cbn [rbind]. unfold dets2 at 1. cbn [map]. rewrite mr2_loop_cons. cbn [forallb]. rewrite !Sd, leqb_refl. cbn [andb negb].
  change [even_up h; even_up v] with (map even_up [h; v]) at 1.
  rewrite (mr2_level_ok t b h v Hw Hs Hg (Hb ltac:(lia)) H1 H2). cbn [rbind last2 List.length skipn Nat.sub map].
  unfold half_up. pose proof (even_up_even h) as Eh. pose proof (even_up_even v) as Ev. replace (even_up h / 2 * 2)%nat with (even_up h) by lia. replace (even_up v / 2 * 2)%nat with (even_up v) by lia. reflexivity.
Qed.

(** *** three dimensions *)
Lemma split_rec_ok t b n1 n2 n3 : shp t = [b; n1; n2; n3] -> (2 <= n1)%nat -> (2 <= n2)%nat -> (2 <= n3)%nat ->
  split_rec 3 3 (fullN A m 3 t) "" = Ok (map (fun k => (band_key k, bd k t)) ([false; false; false] :: bands3)).
Proof.
  intros Hs H1 H2 H3. pose proof (shp_fullN A m 3 t b _ Hs) as HF. cbn [map] in HF.
  pose proof (even_up_ge n1). pose proof (even_up_ge n2). pose proof (even_up_ge n3). pose proof (even_up_even n1) as E1. pose proof (even_up_even n2) as E2. pose proof (even_up_even n3) as E3.
  unfold bands3. cbn [map band_key]. rewrite <- !(band3 A m t b n1 n2 n3 _ _ _ Hs). set (F := fullN A m 3 t) in *.
  assert (S1 : forall d, shp (blk F 3 d) = [b; even_up n1; even_up n2; (even_up n3 / 2)%nat]) by (intros d; unfold blk; rewrite shp_narrow, HF; reflexivity).
  assert (S2 : forall d d', shp (blk (blk F 3 d) 2 d') = [b; even_up n1; (even_up n2 / 2)%nat; (even_up n3 / 2)%nat]) by (intros d d'; unfold blk at 1; rewrite shp_narrow, S1; reflexivity).
  assert (P3 : split2 F 3 (nth 3 (shp F) 0%nat / 2) = Ok (blk F 3 false, blk F 3 true)) by (apply blk_split; rewrite ?HF; cbn [nth]; auto; lia).
  assert (P2 : forall d, split2 (blk F 3 d) 2 (nth 2 (shp (blk F 3 d)) 0%nat / 2) = Ok (blk (blk F 3 d) 2 false, blk (blk F 3 d) 2 true)) by (intros d; apply blk_split; rewrite ?S1; cbn [nth]; auto; lia).
  assert (P1 : forall d d', split2 (blk (blk F 3 d) 2 d') 1 (nth 1 (shp (blk (blk F 3 d) 2 d')) 0%nat / 2) = Ok (blk (blk (blk F 3 d) 2 d') 1 false, blk (blk (blk F 3 d) 2 d') 1 true)) by (intros d d'; apply blk_split; rewrite ?S2; cbn [nth]; auto; lia).
  cbn [split_rec]. cbv zeta. rewrite (rank_shp F _ HF). cbn [List.length]. change (4 - (3 - 2))%nat with 3%nat. rewrite P3. cbn [rbind fst snd].
  rewrite !(rank_shp _ _ (S1 _)). cbn [List.length]. change (4 - (3 - 1))%nat with 2%nat. rewrite !P2. cbn [rbind fst snd].
  rewrite !(rank_shp _ _ (S2 _ _)). cbn [List.length]. change (4 - (3 - 0))%nat with 1%nat. rewrite !P1. cbn [rbind fst snd]. reflexivity.
Qed.
Definition AAA := [false; false; false].
Definition ddict t : sdict (K := K) := map (fun k => (band_key k, bd k t)) bands3.
Lemma mw3_step_ok odd t b n1 n2 n3 : translate_boundary odd = Ok (emode m) -> wf t -> shp t = [b; n1; n2; n3] -> ttag t = g -> (L <= n1)%nat -> (L <= n2)%nat -> (L <= n3)%nat ->
  mw3_step w odd (lmS (map even_up [n1; n2; n3])) (map isodd [n1; n2; n3]) t = Ok (bd AAA t, ddict t).
Proof.
  intros Ho Hw Hs Hg H1 H2 H3. unfold mw3_step, lmS. unfold fwt_pad_n. rewrite Ho. cbn [rbind]. rewrite pads_of_ev, (E_pad m t b _ Hw Hs); [|cbn; lia|repeat constructor; apply padable2n; lia]. cbn [rbind map].
  pose proof (shp_E m t b _ Hs) as HE. cbn [map] in HE.
  pose proof (even_up_ge n1). pose proof (even_up_ge n2). pose proof (even_up_ge n3).
  rewrite (mm3_ok L g Am Am_shape HL (E m t) b (even_up n1) (even_up n2) (even_up n3) HE (wf_E m t) Hg); try apply even_up_even; try lia. cbn [rbind].
  change (sqs _ (axesN 3) (E m t)) with (fullN A m 3 t). rewrite (split_rec_ok t b n1 n2 n3 Hs) by lia. reflexivity.
Qed.
Lemma lo3_S J t : Nat.iter (S J) (bd AAA) t = Nat.iter J (bd AAA) (bd AAA t).
Proof. apply iter_r. Qed.
Lemma mw3_loop_ok odd : translate_boundary odd = Ok (emode m) -> forall J t b n1 n2 n3 acc, wf t -> shp t = [b; n1; n2; n3] -> ttag t = g -> fitsN L J [n1; n2; n3] ->
  mw3_loop w odd (bmatsN lmS J [n1; n2; n3]) (bpadsN J [n1; n2; n3]) t acc = Ok (Nat.iter J (bd AAA) t, map (fun j => PDict (ddict (Nat.iter j (bd AAA) t))) (rev (seq 0 J)) ++ acc).
Proof.
  intros Ho. induction J as [|J IH]; intros t b n1 n2 n3 acc Hw Hs Hg Hf; [reflexivity|]. destruct Hf as [Hn Hf]. apply Forall3_inv in Hn as (H1 & H2 & H3).
  cbn [bmatsN bpadsN mw3_loop]. rewrite (mw3_step_ok odd t b n1 n2 n3 Ho Hw Hs Hg H1 H2 H3). cbn [rbind fst snd].
  rewrite (IH (bd AAA t) b (half_up n1) (half_up n2) (half_up n3)); [|apply wf_core|apply (shp_bandc (tprod A) m AAA t b [n1; n2; n3] Hs)|exact Hg|exact Hf].
  rewrite lo3_S, seq_S_map, <- app_assoc. cbn [app]. do 2 f_equal. f_equal. apply map_ext. intros j. rewrite lo3_S. reflexivity.
Qed.
(** the eight bands concatenated; the approximation may still carry the padding *)
Lemma cat_coeff_ok t b n1 n2 n3 a : wf t -> shp t = [b; n1; n2; n3] -> (2 <= n1)%nat -> (2 <= n2)%nat -> (2 <= n3)%nat ->
  slice_to a (shp (bd AAA t)) = Ok (bd AAA t) -> nth 0 (shp a) 0%nat = b ->
  cat_coeff_recursive rec_limit (dict_set (ddict t) "aaa" a) = Ok (fullN A m 3 t).
Proof.
  intros Hw Hs H1 H2 H3 Ha Hab. pose proof (shp_fullN A m 3 t b _ Hs) as HF. cbn [map] in HF.
  pose proof (even_up_ge n1). pose proof (even_up_ge n2). pose proof (even_up_ge n3). pose proof (even_up_even n1) as E1. pose proof (even_up_even n2) as E2. pose proof (even_up_even n3) as E3.
  assert (Sk : forall k, shp (bd k t) = [b; half_up n1; half_up n2; half_up n3]) by (intros k; apply (shp_bandc (tprod A) m k t b [n1; n2; n3] Hs)).
  assert (Bk : forall d1 d2 d3, bd [d1; d2; d3] t = blk (blk (blk (fullN A m 3 t) 3 d3) 2 d2) 1 d1) by (intros; symmetry; apply (band3 A m t b n1 n2 n3 _ _ _ Hs)).
  set (F := fullN A m 3 t) in *. assert (HwF : wf F) by (apply wf_sqs, wf_E).
  assert (S1 : forall d, shp (blk F 3 d) = [b; even_up n1; even_up n2; half_up n3]) by (intros d; unfold blk; rewrite shp_narrow, HF; reflexivity).
  assert (S2 : forall d d', shp (blk (blk F 3 d) 2 d') = [b; even_up n1; half_up n2; half_up n3]) by (intros d d'; unfold blk at 1; rewrite shp_narrow, S1; reflexivity).
  assert (C1 : forall d d', cat 1 [blk (blk (blk F 3 d) 2 d') 1 false; blk (blk (blk F 3 d) 2 d') 1 true] = Ok (blk (blk F 3 d) 2 d')) by (intros d d'; apply blk_cat; [apply wf_make|rewrite (rank_shp _ _ (S2 d d')); cbn; lia|rewrite S2; exact E1]).
  assert (C2 : forall d, cat 2 [blk (blk F 3 d) 2 false; blk (blk F 3 d) 2 true] = Ok (blk F 3 d)) by (intros d; apply blk_cat; [apply wf_make|rewrite (rank_shp _ _ (S1 d)); cbn; lia|rewrite S1; exact E2]).
  assert (C3 : cat 3 [blk F 3 false; blk F 3 true] = Ok F) by (apply blk_cat; [exact HwF|rewrite (rank_shp _ _ HF); cbn; lia|rewrite HF; exact E3]).
  (* one pair *)
  assert (Hpair : forall (d : sdict) key u lo hi r k s, Sep.dict_get d ("d" ++ str_tl key)%string = Some hi -> shp hi = s -> List.length s = 4%nat -> hd 0%nat s = b -> nth 0 (shp u) 0%nat = b ->
     slice_to u s = Ok lo -> shp lo = s -> String.length key = k -> (k <= 4)%nat -> cat (4 - k) [lo; hi] = Ok r -> cat_pair d (key, u) = Ok r).
  { intros d key u lo hi r k s G1 G2 G3 G3' G4 G5 G6 G7 G8 G9. unfold cat_pair. cbn [fst snd]. rewrite G1. rewrite (rank_shp _ _ G2), G3. cbn [Nat.ltb Nat.leb]. rewrite G2, G4.
    replace (b :: firstn 3 (tl s)) with s; [|destruct s as [|s0 s]; [discriminate|]; cbn [hd tl] in *; rewrite <- G3'; f_equal; symmetry; apply firstn_all2; cbn [List.length] in G3; apply le_S_n; rewrite G3; apply le_n].
    rewrite G5. cbn [rbind]. rewrite (rank_shp _ _ G6), G3, G7. destruct (Nat.ltb_spec 4 k); [lia|]. exact G9. }
  assert (Hself : forall u s, wf u -> shp u = s -> slice_to u s = Ok u) by (intros u s Hu <-; apply slice_to_id, Hu).
  unfold rec_limit. change 1000%nat with (S (S (S 997))). generalize 997%nat as fuel. intros fuel. unfold ddict, bands3. cbn [map band_key dict_set String.eqb Ascii.eqb Bool.eqb].
  cbn [cat_coeff_recursive no_empty_key forallb fst snd String.eqb negb andb filter starts_a].
  cbn [cat_pass fst snd str_tl].
  erewrite (Hpair _ "ada"%string _ _ _ _ 3%nat); [|reflexivity|apply Sk|reflexivity|reflexivity|rewrite Sk; reflexivity|apply Hself; [apply wf_core|apply Sk]|apply Sk|reflexivity|lia|rewrite !Bk; apply C1].
  erewrite (Hpair _ "aad"%string _ _ _ _ 3%nat); [|reflexivity|apply Sk|reflexivity|reflexivity|rewrite Sk; reflexivity|apply Hself; [apply wf_core|apply Sk]|apply Sk|reflexivity|lia|rewrite !Bk; apply C1].
  erewrite (Hpair _ "add"%string _ _ _ _ 3%nat); [|reflexivity|apply Sk|reflexivity|reflexivity|rewrite Sk; reflexivity|apply Hself; [apply wf_core|apply Sk]|apply Sk|reflexivity|lia|rewrite !Bk; apply C1].
  erewrite (Hpair _ "aaa"%string _ _ _ _ 3%nat); [|reflexivity|apply Sk|reflexivity|reflexivity|exact Hab|rewrite Sk in Ha; exact Ha|apply Sk|reflexivity|lia|unfold AAA; rewrite !Bk; apply C1].
  cbn [rbind dict_set String.eqb Ascii.eqb Bool.eqb no_empty_key forallb fst snd negb andb filter starts_a cat_pass str_tl].
  erewrite (Hpair _ "ad"%string _ _ _ _ 2%nat); [|reflexivity|apply S2|reflexivity|reflexivity|rewrite S2; reflexivity|apply Hself; [apply wf_make|apply S2]|apply S2|reflexivity|lia|apply C2].
  erewrite (Hpair _ "aa"%string _ _ _ _ 2%nat); [|reflexivity|apply S2|reflexivity|reflexivity|rewrite S2; reflexivity|apply Hself; [apply wf_make|apply S2]|apply S2|reflexivity|lia|apply C2].
  cbn [rbind dict_set String.eqb Ascii.eqb Bool.eqb no_empty_key forallb fst snd negb andb filter starts_a cat_pass str_tl].
  erewrite (Hpair _ "a"%string _ _ _ _ 1%nat); [|reflexivity|apply S1|reflexivity|reflexivity|rewrite S1; reflexivity|apply Hself; [apply wf_make|apply S1]|apply S1|reflexivity|lia|apply C3].
  reflexivity.
Qed.
(** *** the synthesis loop in three dimensions *)
Definition iter3 (j : nat) t : tensor K := Nat.iter j (bd AAA) t.
(** what is stored under the key aaa of the dictionary of level j + 1 *)
Definition stored (J j : nat) t : tensor K := if Nat.eqb (S j) J then iter3 J t else E m (iter3 (S j) t).
Lemma ddict_shapes t b n1 n2 n3 : shp t = [b; n1; n2; n3] ->
  match ddict t with [] => true | kv :: d' => forallb (fun c => list_eqb Nat.eqb (shp (snd c)) (shp (snd kv))) d' end = true.
Proof.
  intros Hs. assert (Sk : forall k, shp (bd k t) = [b; half_up n1; half_up n2; half_up n3]) by (intros k; apply (shp_bandc (tprod A) m k t b [n1; n2; n3] Hs)).
  unfold ddict, bands3. cbn [map forallb fst snd]. rewrite !Sk, leqb_refl. reflexivity.
Qed.
Lemma mr3_loop_cons s_ rmats lll t b n1 n2 n3 his : wf t -> shp t = [b; n1; n2; n3] -> ttag t = g -> (L <= n1)%nat -> (L <= n2)%nat -> (L <= n3)%nat ->
  slice_to lll (shp (bd AAA t)) = Ok (bd AAA t) -> nth 0 (shp lll) 0%nat = b -> s_ = map sp_t (lmS (map even_up [n1; n2; n3])) ->
  mr3_loop (Some s_ :: rmats) lll (PDict (ddict t) :: his) = let '(r, l) := mr3_loop rmats (E m t) his in (r, PDict (dict_set (ddict t) "aaa" lll) :: l).
Proof.
  intros Hw Hs Hg H1 H2 H3 Ha Hb ->. cbn [mr3_loop]. change (List.length (ddict t)) with 7%nat. change (Nat.eqb 7 7) with true. cbn [negb]. rewrite (ddict_shapes t b n1 n2 n3 Hs). cbn [negb].
  rewrite (cat_coeff_ok t b n1 n2 n3 lll Hw Hs ltac:(lia) ltac:(lia) ltac:(lia) Ha Hb). cbn [rbind].
  pose proof (shp_fullN A m 3 t b _ Hs) as HF. cbn [map] in HF. pose proof (even_up_ge n1). pose proof (even_up_ge n2). pose proof (even_up_ge n3).
  unfold lmS. cbn [map]. rewrite (mm3_ok L g (fun n => sp_t (Am n)) St_shape HL (fullN A m 3 t) b (even_up n1) (even_up n2) (even_up n3) HF); try apply even_up_even; try lia; [|apply wf_sqs, wf_E|rewrite ttag_fullN; exact Hg].
  cbn [rbind]. rewrite (syn_inverse 3 t b [n1; n2; n3] Hs eq_refl) by (repeat constructor; assumption). reflexivity.
Qed.
Lemma mr3_loop_ok : forall J t b n1 n2 n3 rs his, wf t -> shp t = [b; n1; n2; n3] -> ttag t = g -> fitsN L J [n1; n2; n3] ->
  mr3_loop (map Some (rev (map (map sp_t) (bmatsN lmS J [n1; n2; n3]))) ++ rs) (iter3 J t) (map (fun j => PDict (ddict (iter3 j t))) (rev (seq 0 J)) ++ his) =
  let '(r, l) := mr3_loop rs (if Nat.eqb J 0 then t else E m t) his in (r, map (fun j => PDict (dict_set (ddict (iter3 j t)) "aaa" (stored J j t))) (rev (seq 0 J)) ++ l).
Proof.
  induction J as [|J IH]; intros t b n1 n2 n3 rs his Hw Hs Hg Hf; [cbn [bmatsN map rev app seq]; change (Nat.eqb 0 0) with true; change (iter3 0 t) with t; destruct (mr3_loop rs t his); reflexivity|]. destruct Hf as [Hn Hf]. apply Forall3_inv in Hn as (H1 & H2 & H3).
  cbn [bmatsN map rev]. rewrite map_app. unfold iter3 at 1. rewrite lo3_S. fold (iter3 J (bd AAA t)). rewrite !seq_S_map, <- !app_assoc. cbn [app map].
  assert (Sd : forall k, shp (bd k t) = [b; half_up n1; half_up n2; half_up n3]) by (intros k; apply (shp_bandc (tprod A) m k t b [n1; n2; n3] Hs)).
  rewrite (map_ext (fun j => PDict (ddict (iter3 (S j) t))) (fun j => PDict (ddict (iter3 j (bd AAA t))))) by (intros j; unfold iter3; rewrite lo3_S; reflexivity).
  rewrite (IH (bd AAA t) b (half_up n1) (half_up n2) (half_up n3)); [|apply wf_core|apply Sd|exact Hg|exact Hf].
  change (iter3 0 t) with t.
  assert (Hcut : slice_to (if Nat.eqb J 0 then bd AAA t else E m (bd AAA t)) (shp (bd AAA t)) = Ok (bd AAA t)).
  { destruct (Nat.eqb J 0); [apply slice_to_id, wf_core|apply (E_slice m (bd AAA t) b [half_up n1; half_up n2; half_up n3]); [apply wf_core|apply Sd]]. }
  rewrite (mr3_loop_cons _ _ _ t b n1 n2 n3 his Hw Hs Hg H1 H2 H3 Hcut); [| |reflexivity].
  - change (Nat.eqb (S J) 0) with false. destruct (mr3_loop rs (E m t) his) as [r l]. f_equal.
    change (map even_up [n1; n2; n3]) with [even_up n1; even_up n2; even_up n3].
    assert (E1 : map (fun j => PDict (dict_set (ddict (iter3 (S j) t)) "aaa" (stored (S J) (S j) t))) (rev (seq 0 J)) = map (fun j => PDict (dict_set (ddict (iter3 j (bd AAA t))) "aaa" (stored J j (bd AAA t)))) (rev (seq 0 J))).
    { apply map_ext. intros j. unfold stored, iter3. rewrite !lo3_S. change (Nat.eqb (S (S j)) (S J)) with (Nat.eqb (S j) J). reflexivity. }
    rewrite E1, <- app_assoc. cbn [app]. assert (E2 : (if Nat.eqb J 0 then bd AAA t else E m (bd AAA t)) = stored (S J) 0 t) by (unfold stored, iter3; rewrite !lo3_S; destruct J; reflexivity).
rewrite E2. reflexivity.
  - destruct (Nat.eqb J 0); [rewrite Sd; reflexivity|rewrite (shp_E m _ _ _ (Sd AAA)); reflexivity].
Qed.
End Sep.
End NS.
