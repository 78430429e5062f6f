(** C41: the operators of MatrixWavedec / MatrixWaverec. *)
From Coq Require Import List Arith ZArith Lia Bool String Ring.
From Coq Require Import ZifyNat ZifyBool.
From Verif Require Import Base Sums Tensor TensorFacts Util Perm Plumb Accept Spec Conv1 PadFacts CoreFacts AnalysisInv Synthesis Filters Wave1 Wave1Inv Rec1 SepFacts Lin Sparse SparseFacts SparseConv SpecMat SparseMM LinAlg GramSchmidt Mat1 MatOrth Boundary MatPre Mat1Facts Mat1Call Tags PropsMat1.
Import ListNotations.
Ltac Zify.zify_post_hook ::= Z.div_mod_to_equations.
Local Arguments Nat.div : simpl never.
Local Arguments Nat.modulo : simpl never.

Section MO.
Context {K : CRing}.
Add Ring Kring : (cr_th K).
Open Scope K_scope.
Implicit Types (t u v x y z : tensor K) (M : nat -> nat -> K) (w : wavelet K).

Lemma mat_axis_mul M1 M2 P n1 n2 a x : (a < rank x)%nat ->
  (forall i j, (i < n2)%nat -> (j < nth a (shp x) 0%nat)%nat -> P i j = sumf n1 (fun k => M2 i k * M1 k j)) ->
  mat_axis P n2 a x = mat_axis M2 n2 a (mat_axis M1 n1 a x).
Proof.
  intros Ha HP. apply t_ext; try apply wf_mat_axis; [reflexivity|rewrite !shp_mat_axis, updn_updn; reflexivity|].
  intros idx Hv. rewrite shp_mat_axis in Hv. rewrite get_mat_axis by exact Hv.
  rewrite get_mat_axis by (rewrite shp_mat_axis, updn_updn; exact Hv). rewrite shp_mat_axis, nth_updn_eq by exact Ha.
  pose proof (nth_valid_updn _ _ _ _ Hv Ha) as Hi. set (i := nth a idx 0%nat) in *. set (n := nth a (shp x) 0%nat) in *.
  assert (Hl : (a < List.length idx)%nat) by (rewrite (valid_length _ _ Hv), updn_length; exact Ha).
  transitivity (sumf n (fun j => sumf n1 (fun k => M2 i k * (M1 k j * get x (updn a j idx))))).
  - apply sumf_ext. intros j Hj. rewrite HP by assumption. rewrite <- sumf_mul_r. apply sumf_ext. intros k Hk. ring.
  - rewrite sumf_swap. apply sumf_ext. intros k Hk. rewrite sumf_mul_l. f_equal.
    rewrite get_mat_axis by (rewrite <- (updn_updn a n1 n2); apply valid_updn; assumption).
    fold n. apply sumf_ext. intros j Hj. rewrite updn_updn. rewrite nth_updn_eq by exact Hl. reflexivity.
Qed.

(** a matrix of size h extended by the identity *)
Definition xt M (h : nat) (i j : nat) : K := if Nat.ltb i h || Nat.ltb j h then (if Nat.ltb i h && Nat.ltb j h then M i j else 0) else delta i j.
Lemma cat_from_app d us us' : forall t, cat_from d t (us ++ us') = (let* p := cat_from d t us in cat_from (K := K) d p us').
Proof. induction us as [|u us IH]; intros t; cbn [app cat_from rbind]; [reflexivity|]. destruct (cat2 d t u) as [p|e]; cbn [rbind]; [apply IH|reflexivity]. Qed.
Lemma cat2_inv d t u y : cat2 d t u = Ok y -> shp y = updn d (nth d (shp t) 0 + nth d (shp u) 0)%nat (shp t) /\ ttag y = ttag t /\ wf y /\ rank u = rank t /\ (d < rank t)%nat /\
  updn d 0%nat (shp t) = updn d 0%nat (shp u) /\
  forall idx, valid idx (shp y) -> get y idx = if Nat.ltb (nth d idx 0%nat) (nth d (shp t) 0%nat) then get t idx else get u (updn d (nth d idx 0 - nth d (shp t) 0)%nat idx).
Proof.
  unfold cat2. destruct (Nat.eqb_spec (rank t) (rank u)) as [Hr|]; [|discriminate]. destruct (Nat.ltb_spec d (rank t)) as [Hd|]; [|discriminate]. cbn [andb].
  destruct (list_eqb Nat.eqb (updn d 0%nat (shp t)) (updn d 0%nat (shp u))) eqn:E; [|discriminate]. apply eqidx_spec in E. intros H. injection H as <-.
  split; [reflexivity|]. split; [reflexivity|]. split; [apply wf_make|]. split; [congruence|]. split; [exact Hd|]. split; [exact E|].
  intros idx Hv. rewrite get_make by exact Hv. reflexivity.
Qed.
Lemma cat2_run d t u : rank t = rank u -> (d < rank t)%nat -> updn d 0%nat (shp t) = updn d 0%nat (shp u) -> exists y, cat2 d t u = Ok y.
Proof.
  intros H1 H2 H3. unfold cat2. rewrite H1, Nat.eqb_refl. destruct (Nat.ltb_spec d (rank u)); [|lia]. change (list_eqb Nat.eqb) with eqidx. rewrite (proj2 (eqidx_spec _ _) H3). cbn. eauto.
Qed.
Lemma cat_xt M h a u rest : wf u -> (a < rank u)%nat -> nth a (shp u) 0%nat = h -> forall y, cat a (u :: rest) = Ok y ->
  wf y /\ rank y = rank u /\ ttag y = ttag u /\ (h <= nth a (shp y) 0)%nat /\ updn a 0%nat (shp y) = updn a 0%nat (shp u) /\
  cat a (mat_axis M h a u :: rest) = Ok (mat_axis (xt M h) (nth a (shp y) 0%nat) a y).
Proof.
  intros Hw Ha Hh. cbn [cat]. induction rest as [|v rest IH] using rev_ind; intros y Hy.
  - cbn [cat_from] in Hy |- *. injection Hy as <-. repeat split; auto; [lia|]. f_equal. rewrite Hh. apply mat_axis_ext; [exact Ha|].
    intros i j Hi Hj. unfold xt. destruct (Nat.ltb_spec i h); [|lia]. destruct (Nat.ltb_spec j h); [reflexivity|lia].
  - rewrite cat_from_app in Hy. apply rbind_ok in Hy as (p & Hp & Hy). cbn [cat_from] in Hy. apply rbind_ok in Hy as (y' & Hy & E). injection E as <-.
    destruct (IH p Hp) as (P1 & P2 & P2t & P3 & P4 & P5). destruct (cat2_inv _ _ _ _ Hy) as (Y1 & Y2 & Y3 & Y4 & Y5 & Y6 & Y7).
    assert (Hry : rank y' = rank u) by (unfold rank in *; rewrite Y1, updn_length; lia).
    assert (Hny : nth a (shp y') 0%nat = (nth a (shp p) 0 + nth a (shp v) 0)%nat) by (rewrite Y1, nth_updn_eq by exact Y5; reflexivity).
    split; [exact Y3|]. split; [exact Hry|]. split; [congruence|]. split; [lia|]. split; [rewrite Y1, updn_updn; exact P4|].
    rewrite cat_from_app, P5. cbn [rbind cat_from].
    set (q := mat_axis (xt M h) (nth a (shp p) 0%nat) a p).
    assert (Hsq : shp q = shp p) by (unfold q; rewrite shp_mat_axis, updn_same; reflexivity).
    destruct (cat2_run a q v) as [z Hz]; [unfold rank in *; rewrite Hsq; lia|unfold rank in *; rewrite Hsq; exact Y5|rewrite Hsq; exact Y6|].
    rewrite Hz. cbn [rbind]. f_equal. destruct (cat2_inv _ _ _ _ Hz) as (Z1 & Z2 & Z3 & Z4 & Z5 & Z6 & Z7).
    assert (Hsz : shp z = shp y') by (rewrite Z1, Y1, Hsq; reflexivity).
    apply t_ext; [exact Z3|apply wf_mat_axis|rewrite Z2; unfold q; rewrite !ttag_mat_axis; congruence|rewrite Hsz, shp_mat_axis, updn_same; reflexivity|].
    intros idx Hv. rewrite Z7 by exact Hv. rewrite Hsz in Hv. rewrite Hsq. set (np := nth a (shp p) 0%nat) in *. set (nv := nth a (shp v) 0%nat) in *.
    rewrite get_mat_axis by (rewrite updn_same; exact Hv). rewrite Hny.
    assert (Hay : (a < rank y')%nat) by lia. pose proof (valid_nth _ _ a Hv Hay) as Hi. rewrite Hny in Hi. set (i := nth a idx 0%nat) in *.
    assert (Hl : (a < List.length idx)%nat) by (rewrite (valid_length _ _ Hv); exact Hay).
    assert (Hva : forall j, (j < np + nv)%nat -> valid (updn a j idx) (shp y')).
    { intros j Hj. rewrite <- (updn_same a (shp y') 0%nat), Hny. apply valid_updn; assumption. }
    assert (Hvp : forall j, (j < np)%nat -> valid (updn a j idx) (shp p)).
    { intros j Hj. replace (shp p) with (updn a np (shp y')) by (rewrite Y1, updn_updn; apply updn_same). apply valid_updn; assumption. }
    destruct (Nat.ltb_spec i np) as [Hlt|Hge].
    + unfold q. rewrite get_mat_axis by (unfold np; rewrite updn_same; rewrite <- (updn_same a idx 0%nat); apply Hvp, Hlt). fold np. fold i.
      rewrite sumf_app. rewrite (sumf_zero nv).
      * ring_simplify. apply sumf_ext. intros j Hj. f_equal. rewrite Y7 by (apply Hva; lia). rewrite nth_updn_eq by exact Hl. destruct (Nat.ltb_spec j np); [reflexivity|lia].
      * intros j Hj. unfold xt. destruct (Nat.ltb_spec i h); cbn [orb andb].
        -- destruct (Nat.ltb_spec (np + j) h); [lia|]. ring.
        -- destruct (Nat.ltb_spec (np + j) h); [lia|]. unfold delta. destruct (Nat.eqb_spec i (np + j)); [lia|]. ring.
    + rewrite (sumf_single (np + nv) i); [|exact Hi|].
      * unfold xt. destruct (Nat.ltb_spec i h); [lia|]. cbn [orb]. unfold delta. rewrite Nat.eqb_refl. replace (updn a i idx) with idx by (symmetry; apply updn_same). rewrite Y7 by exact Hv. fold i. destruct (Nat.ltb_spec i np); [lia|]. fold np. ring.
      * intros j Hj Hne. unfold xt. destruct (Nat.ltb_spec i h); [lia|]. cbn [orb andb]. destruct (Nat.ltb_spec j h); [ring|]. unfold delta. destruct (Nat.eqb_spec i j); [congruence|ring].
Qed.

(** ** padding-free levels *)
Section Even.
Variables (A : nat -> nat -> nat -> K) (m : mode) (a : nat).
Definition fullA t := mat_axis (A (nth a (shp t) 0%nat)) (nth a (shp t) 0%nat) a t.
Lemma even_level t n : wf t -> (a < rank t)%nat -> nth a (shp t) 0%nat = n -> (n mod 2 = 0)%nat ->
  bw_lo A m a t = narrow (fullA t) a 0 (n / 2) /\ bw_hi A m a t = narrow (fullA t) a (n / 2) (n / 2) /\ cat a [bw_lo A m a t; bw_hi A m a t] = Ok (fullA t).
Proof.
  intros Hw Ha Hn He.
  assert (H1 : bw_lo A m a t = narrow (fullA t) a 0 (n / 2)).
  { unfold bw_lo, bw_size, fullA. rewrite Hn, (even_up_id n He). rewrite (ext_even_id m [a] t Hw (good_axes1 _ _ Ha)) by (constructor; [rewrite Hn; exact He|constructor]).
    rewrite narrow_mat_axis by (auto; lia). reflexivity. }
  assert (H2 : bw_hi A m a t = narrow (fullA t) a (n / 2) (n / 2)).
  { unfold bw_hi, bw_size, fullA. rewrite Hn, (even_up_id n He). rewrite (ext_even_id m [a] t Hw (good_axes1 _ _ Ha)) by (constructor; [rewrite Hn; exact He|constructor]).
    rewrite narrow_mat_axis by (auto; lia). reflexivity. }
  split; [exact H1|]. split; [exact H2|]. rewrite H1, H2. apply cat_split; [apply wf_mat_axis|unfold fullA; rewrite rank_mat_axis; exact Ha|]. unfold fullA. rewrite shp_mat_axis, nth_updn_eq by exact Ha. lia.
Qed.
Lemma coeffs_S J t : bw_coeffs A m a (S J) t = bw_coeffs A m a J (bw_lo A m a t) ++ [bw_hi A m a t].
Proof.
  unfold bw_coeffs, bw_approx. rewrite iter_r. cbn [seq rev app]. rewrite map_app. f_equal. cbn [map Nat.iter nat_rect]. f_equal. rewrite <- seq_shift, <- map_rev, map_map. apply map_ext. intros k. rewrite iter_r. reflexivity.
Qed.
End Even.
Lemma pow_even J n : Nat.divide (2 ^ S J) n -> (n mod 2 = 0)%nat /\ Nat.divide (2 ^ J) (n / 2).
Proof. intros [q Hq]. cbn [Nat.pow] in Hq. split; [nia|]. exists q. nia. Qed.
Lemma pads_even J : forall n, Nat.divide (2 ^ J) n -> existsb (fun b => b) (bpads J n) = false.
Proof.
  induction J as [|J IH]; intros n H; [reflexivity|]. apply pow_even in H as [He H]. cbn [bpads existsb]. rewrite He, (even_up_id n He), IH by exact H. reflexivity.
Qed.

Section Op.
Variables (LA : linalg K) (w : wavelet K) (method : string) (m : mode) (L : nat) (g : tag) (a : nat).
Hypothesis HA : mats_ok LA w method L g.
Hypothesis HL : (2 <= L)%nat.
Let A := Bm LA w method g.
Lemma mget_xt (S E : smat K) h N : s_wf S -> s_rows S = h -> s_cols S = h ->
  (forall i j, (i < N)%nat -> (j < N)%nat -> mget E i j = if Nat.ltb i (s_rows S) || Nat.ltb j (s_rows S) then mget S i j else if Nat.eqb i j then 1 else 0) ->
  forall i j, (i < N)%nat -> (j < N)%nat -> mget E i j = xt (mget S) h i j.
Proof.
  intros Hw Hr Hc HE i j Hi Hj. rewrite HE by assumption. rewrite Hr. unfold xt, delta. destruct (Nat.ltb_spec i h), (Nat.ltb_spec j h); cbn [orb andb]; try reflexivity; apply mget_out; auto; lia.
Qed.
Lemma fold_fwt_ok J : forall t k rest (M : smat K) N x, wf t -> (a < rank t)%nat -> nth a (shp t) 0%nat = k -> fitsJ L J k -> Nat.divide (2 ^ J) k ->
  (a < rank x)%nat -> s_wf M -> s_tag M = g -> s_rows M = N -> s_cols M = nth a (shp x) 0%nat -> cat a (t :: rest) = Ok (mat_axis (mget M) N a x) ->
  exists W, fold_fwt M (bmats LA w method g J k) = Ok W /\ s_wf W /\ s_tag W = g /\ s_rows W = N /\ s_cols W = nth a (shp x) 0%nat /\
    cat a (bw_coeffs A m a J t ++ rest) = Ok (mat_axis (mget W) N a x).
Proof.
  induction J as [|J IH]; intros t k rest M N x Hw Ha Hk Hf Hd Hax M1 M2 M3 M4 Hcat.
  - exists M. cbn [bmats fold_fwt]. repeat (split; [first [reflexivity|assumption]|]). exact Hcat.
  - destruct Hf as [Hn Hf]. apply pow_even in Hd as [He Hd]. cbn [bmats fold_fwt]. rewrite (even_up_id k He) in Hf |- *.
    destruct (Am_ok LA w method L g HA k Hn He) as (_ & A1 & A2 & A3 & A4 & _).
    destruct (cat_xt (mget (Am LA w method g k)) k a t rest Hw Ha Hk _ Hcat) as (_ & _ & _ & C3 & _ & C5).
    rewrite shp_mat_axis, nth_updn_eq in C3, C5 by exact Hax.
    destruct (cat_identity_ok (Am LA w method g k) N A4) as (e & E0 & E1 & E2 & E3 & E4 & E5); [congruence|lia|].
    rewrite M3, E0. cbn [rbind]. destruct (sp_mm_run e M) as [p Hp]; [congruence|congruence|]. rewrite Hp. cbn [rbind].
    destruct (sp_mm_ok _ _ _ Hp E4 M1) as (P1 & P2 & P3 & P4 & P5 & P6).
    assert (Hlo : nth a (shp (bw_lo A m a t)) 0%nat = (k / 2)%nat) by (rewrite bw_lo_shp, nth_updn_eq by exact Ha; rewrite Hk, (even_up_id k He); reflexivity).
    assert (Hrl : rank (bw_lo A m a t) = rank t) by (unfold rank; rewrite bw_lo_shp; apply updn_length).
    destruct (even_level A m a t k Hw Ha Hk He) as (_ & _ & L3).
    destruct (IH (bw_lo A m a t) (k / 2)%nat (bw_hi A m a t :: rest) p N x) as (W & W0 & W1 & W2 & W3 & W4 & W5); auto; try congruence.
    + apply wf_mat_axis.
    + cbn [cat] in L3, C5 |- *. cbn [cat_from] in L3 |- *. destruct (cat2 a (bw_lo A m a t) (bw_hi A m a t)) as [v|]; [|discriminate]. cbn [rbind] in L3 |- *. injection L3 as ->.
      unfold fullA. rewrite Hk. unfold A, Bm. rewrite C5. f_equal. symmetry.
      rewrite (mat_axis_mul (mget M) (mget e) (mget p) N N a x Hax).
      * apply mat_axis_ext; [rewrite rank_mat_axis; exact Hax|]. intros i j Hi Hj. rewrite shp_mat_axis, nth_updn_eq in Hj by exact Hax.
        apply (mget_xt (Am LA w method g k) e k N); auto.
      * intros i j _ _. rewrite P6, E3. reflexivity.
    + exists W. split; [exact W0|]. repeat (split; [assumption|]). rewrite coeffs_S, <- app_assoc. exact W5.
Qed.

Lemma fold_ifwt_app l l' : forall M : smat K, fold_ifwt M (l ++ l') = (let* p := fold_ifwt M l in fold_ifwt p l').
Proof.
  induction l as [|s l IH]; intros M; cbn [app fold_ifwt rbind]; [reflexivity|]. destruct (cat_sparse_identity_matrix M (s_rows s)) as [s0|]; cbn [rbind]; [|reflexivity]. destruct (sp_mm s s0); cbn [rbind]; [apply IH|reflexivity].
Qed.
Definition ifwt_of (l : list (smat K)) : result (smat K) := match l with [] => Raise ValueError | b :: rest => fold_ifwt b rest end.
Lemma syn_level t k : wf t -> (a < rank t)%nat -> nth a (shp t) 0%nat = k -> (L <= k)%nat -> (k mod 2 = 0)%nat ->
  mat_axis (mget (sp_t (Am LA w method g k))) k a (fullA A a t) = t.
Proof.
  intros Hw Ha Hk Hn He. destruct (Am_ok LA w method L g HA k Hn He) as (_ & _ & _ & _ & _ & A6). unfold fullA. rewrite Hk.
  rewrite (mat_axis_ext _ (fun i j => A k j i)).
  - apply mat_axis_id; auto. intros i j Hi Hj. apply A6; assumption.
  - rewrite rank_mat_axis. exact Ha.
  - intros i j _ _. apply mget_t.
Qed.
Lemma rev_bmats J k : rev (map sp_t (bmats LA w method g (S J) k)) = rev (map sp_t (bmats LA w method g J (even_up k / 2))) ++ [sp_t (Am LA w method g (even_up k))].
Proof. reflexivity. Qed.
Lemma fold_ifwt_ok J : forall t k, wf t -> (a < rank t)%nat -> nth a (shp t) 0%nat = k -> fitsJ L (S J) k -> Nat.divide (2 ^ S J) k ->
  exists V y, ifwt_of (rev (map sp_t (bmats LA w method g (S J) k))) = Ok V /\ s_wf V /\ s_tag V = g /\ s_rows V = k /\ s_cols V = k /\
    cat a (bw_coeffs A m a (S J) t) = Ok y /\ rank y = rank t /\ nth a (shp y) 0%nat = k /\ wf y /\ mat_axis (mget V) k a y = t.
Proof.
  induction J as [|J IH]; intros t k Hw Ha Hk Hf Hd; destruct Hf as [Hn Hf]; apply pow_even in Hd as [He Hd]; rewrite rev_bmats; rewrite (even_up_id k He) in Hf |- *;
    destruct (Am_ok LA w method L g HA k Hn He) as (_ & A1 & A2 & A3 & A4 & _); destruct (even_level A m a t k Hw Ha Hk He) as (L1 & L2 & L3); rewrite coeffs_S.
  - cbn [bmats map rev app ifwt_of fold_ifwt]. exists (sp_t (Am LA w method g k)), (fullA A a t). split; [reflexivity|]. split; [apply wf_t, A4|]. repeat (split; [assumption|]).
    split; [apply rank_mat_axis|]. split; [unfold fullA; rewrite shp_mat_axis, nth_updn_eq by exact Ha; exact Hk|]. split; [apply wf_mat_axis|]. apply syn_level; assumption.
  - assert (Hlo : nth a (shp (bw_lo A m a t)) 0%nat = (k / 2)%nat) by (rewrite bw_lo_shp, nth_updn_eq by exact Ha; rewrite Hk, (even_up_id k He); reflexivity).
    assert (Hrl : rank (bw_lo A m a t) = rank t) by (unfold rank; rewrite bw_lo_shp; apply updn_length).
    destruct (IH (bw_lo A m a t) (k / 2)%nat) as (V & y & V0 & V1 & V2 & V3 & V4 & V5 & V6 & V7 & V8 & V9); auto; [apply wf_mat_axis|lia|].
    destruct (rev (map sp_t (bmats LA w method g (S J) (k / 2)))) as [|b rest] eqn:Er; [discriminate|]. cbn [app ifwt_of] in V0 |- *. rewrite fold_ifwt_app, V0. cbn [rbind fold_ifwt].
    cbn [sp_t s_rows]. rewrite A3. destruct (cat_identity_ok V k V1) as (e & E0 & E1 & E2 & E3 & E4 & E5); [congruence|lia|]. rewrite E0. cbn [rbind].
    destruct (sp_mm_run (sp_t (Am LA w method g k)) e) as [p Hp]; [cbn [sp_t s_tag]; congruence|cbn [sp_t s_cols]; congruence|]. unfold sp_t in Hp at 1. fold (sp_t (Am LA w method g k)) in Hp. cbn [sp_t s_tag s_rows s_cols s_ent] in Hp.
    match goal with |- context [sp_mm ?q e] => change q with (sp_t (Am LA w method g k)) end. fold (sp_t (Am LA w method g k)) in Hp. rewrite Hp. cbn [rbind].
    destruct (sp_mm_ok _ _ _ Hp (wf_t _ A4) E4) as (P1 & P2 & P3 & P4 & P5 & P6).
    (* the concatenation *)
    assert (Hcy : exists z, cat a (bw_coeffs A m a (S J) (bw_lo A m a t) ++ [bw_hi A m a t]) = Ok z /\ cat a [y; bw_hi A m a t] = Ok z).
    { unfold bw_coeffs in V5 |- *. cbn [app cat] in V5 |- *. rewrite cat_from_app, V5. cbn [rbind cat_from].
      destruct (cat2_run a y (bw_hi A m a t)) as [z Hz].
      - rewrite V6, Hrl. unfold rank. rewrite bw_hi_shp. symmetry. apply updn_length.
      - lia.
      - destruct (cat_xt (mget V) (k / 2)%nat a y [] V8 ltac:(lia) V7 y eq_refl) as (_ & _ & _ & _ & _ & _).
        rewrite bw_hi_shp, updn_updn.
        transitivity (updn a 0%nat (shp (mat_axis (mget V) (k / 2) a y))); [rewrite shp_mat_axis, updn_updn; reflexivity|]. rewrite V9, bw_lo_shp, updn_updn. reflexivity.
      - exists z. rewrite Hz. split; reflexivity. }
    destruct Hcy as (z & Hz1 & Hz2). destruct (cat_xt (mget V) (k / 2)%nat a y [bw_hi A m a t] V8 ltac:(lia) V7 z Hz2) as (Z1 & Z2 & _ & Z3 & Z4 & Z5).
    rewrite V9, L3 in Z5. apply ok_injM in Z5.
    assert (Hnz : nth a (shp z) 0%nat = k).
    { cbn [cat cat_from] in Hz2. apply rbind_ok in Hz2 as (z' & Hz2 & Ez). injection Ez as ->. destruct (cat2_inv _ _ _ _ Hz2) as (Y1 & _ & _ & _ & Y5 & _). rewrite Y1, nth_updn_eq by exact Y5.
      rewrite bw_hi_shp, nth_updn_eq by exact Ha. rewrite V7, Hk, (even_up_id k He). lia. }
    exists p, z. split; [reflexivity|]. split; [exact P5|]. split; [rewrite P4; exact A1|]. split; [rewrite P2; exact A3|]. split; [congruence|]. split; [exact Hz1|]. split; [congruence|]. split; [exact Hnz|]. split; [exact Z1|].
    rewrite (mat_axis_mul (mget e) (mget (sp_t (Am LA w method g k))) (mget p) k k a z).
    + rewrite (mat_axis_ext (mget e) (xt (mget V) (k / 2))).
      * rewrite Hnz in Z5. rewrite <- Z5. apply syn_level; assumption.
      * lia.
      * intros i j Hi Hj. rewrite Hnz in Hj. apply (mget_xt V e (k / 2)%nat k); auto.
    + lia.
    + intros i j _ _. rewrite P6. cbn [sp_t s_cols]. rewrite A2. reflexivity.
Qed.
End Op.

Section C41.
Variables (LA : linalg K) (w : wavelet K) (L : nat) (method : string) (m : mode).
Hypothesis HD : domain K.
Hypothesis HR : formally_real K.
Hypothesis HLA : la_ok LA method.
Hypothesis B : orthogonal_bank L (dec_lo w) (dec_hi w) (rec_lo w) (rec_hi w).
Hypothesis HI : boundary_independent L (dec_lo w) (dec_hi w).
Let HL := ob_two _ _ _ _ _ B.
Let Hdl := ob_len_lo _ _ _ _ _ B.
Let Hrl := bank_rl w L B.
Let Htr g n := boundary_s_transpose LA g w n L method B.
Let HM g := bank_mats LA HD HR g w L method HLA B HI.

Lemma call_data level axis o x o' c : wf x -> new_mwavedec w level (AxInt axis) method (Some (mode_name m)) = Ok o -> mw_call LA o x = (o', Ok c) ->
  let a := norm_axis (rank x) axis in let n := nth a (shp x) 0%nat in Nat.divide 2 n ->
  exists J, is_dtype_supported (tdtype x) = true /\ axis_ok (rank x) axis /\ fitsJ L J n /\ pc_items c = map PT (bw_coeffs (Bm LA w method (ttag x)) m a J x) /\ List.length (pc_items c) = S J /\
    mw_mats o' = bmats LA w method (ttag x) J n /\ mw_padded o' = existsb (fun b => b) (bpads J n).
Proof.
  intros Hw Ho Hc a n H2. apply new_mw_inv in Ho. subst o.
  destruct (mw_call_inv LA (mkMW w level axis method (Some (mode_name m)) None [] [] false []) o' x m c Hw eq_refl Hc) as (Hdt & Hax & He & lev & Hlev). cbn [mw_axis mw_wav mw_level] in *. fold a in He, Hlev. fold n in Hlev, He.
  destruct (mw_call_ok LA w method m L (ttag x) (HM _) HL Hdl Hrl (Htr _) (mkMW w level axis method (Some (mode_name m)) None [] [] false []) x axis (Some (mode_name m)) lev) as (o2 & E & _ & _ & _ & _ & _ & _ & E2 & E3); auto.
  { apply translate_mode. }
  { left. reflexivity. }
  rewrite E in Hc. pose proof (f_equal snd Hc) as Hc2. pose proof (f_equal fst Hc) as Hc1. cbn [fst snd] in Hc1, Hc2. apply ok_injM in Hc2. subst c o2. clear Hc.
  assert (Hev : (n mod 2 = 0)%nat) by (destruct H2 as [q Hq]; lia). fold a in E2, E3. fold n in E2, E3. cbn [pc_items]. fold a. fold n. rewrite (even_up_id n Hev) in *.
  pose proof (norm_axis_lt _ _ Hax) as Ha. fold a in Ha.
  exists (bw_levels (Z.to_nat lev) L n). split; [exact Hdt|]. split; [exact Hax|]. split; [apply fits_levels|].
  rewrite (ext_even_id m [a] x Hw (good_axes1 _ _ Ha)) by (constructor; [exact Hev|constructor]). split; [reflexivity|].
  split; [|split; [exact E2|exact E3]]. rewrite map_length. unfold bw_coeffs. cbn [List.length]. rewrite map_length, rev_length, seq_length. reflexivity.
Qed.
Lemma nonempty_J c J : List.length (pc_items c) = S J -> (2 <= List.length (pc_items (K := K) c))%nat -> exists J', J = S J'.
Proof. intros H1 H2. destruct J; [lia|eauto]. Qed.

(** C41: after a padding-free call with at least one level, the operator applied to x along the axis is the
    concatenation [cA_l, cD_l, ..., cD_1] of the returned coefficients *)
Theorem C41_fwt_operator level axis o x o' c : wf x -> new_mwavedec w level (AxInt axis) method (Some (mode_name m)) = Ok o -> mw_call LA o x = (o', Ok c) ->
  let a := norm_axis (rank x) axis in let n := nth a (shp x) 0%nat in
  Nat.divide (2 ^ (List.length (pc_items c) - 1)) n -> (2 <= List.length (pc_items c))%nat ->
  exists ts W, pc_items c = map PT ts /\ sparse_fwt_operator o' = Ok W /\ s_rows W = n /\ s_cols W = n /\ s_tag W = ttag x /\
    cat a ts = Ok (mat_axis (mget W) n a x).
Proof.
  intros Hw Ho Hc a n Hd H2.
  assert (Hd2 : Nat.divide 2 n). { destruct (List.length (pc_items c)) as [|[|l]]; try lia. replace (S (S l) - 1)%nat with (S l) in Hd by lia. apply pow_even in Hd as [Hd _]. exists (n / 2)%nat. lia. }
  destruct (call_data level axis o x o' c Hw Ho Hc Hd2) as (J & Hdt & Hax & Hf & Hi & Hlen & E2 & E3). fold a n in Hf, Hi, E2, E3.
  destruct (nonempty_J c J Hlen H2) as [J' ->]. rewrite Hlen in Hd. replace (S (S J') - 1)%nat with (S J') in Hd by lia.
  pose proof (norm_axis_lt _ _ Hax) as Ha. fold a in Ha. destruct (pow_even J' n Hd) as [He Hd']. destruct Hf as [Hn Hf].
  destruct (Am_ok LA w method L (ttag x) (HM _) n Hn He) as (_ & A1 & A2 & A3 & A4 & _).
  destruct (even_level (Bm LA w method (ttag x)) m a x n Hw Ha eq_refl He) as (_ & _ & L3).
  assert (Hlo : nth a (shp (bw_lo (Bm LA w method (ttag x)) m a x)) 0%nat = (n / 2)%nat) by (rewrite bw_lo_shp, nth_updn_eq by exact Ha; fold n; rewrite (even_up_id n He); reflexivity).
  assert (Hrl' : rank (bw_lo (Bm LA w method (ttag x)) m a x) = rank x) by (unfold rank; rewrite bw_lo_shp; apply updn_length).
  rewrite (even_up_id n He) in Hf.
  destruct (fold_fwt_ok LA w method m L (ttag x) a (HM _) HL J' (bw_lo (Bm LA w method (ttag x)) m a x) (n / 2)%nat [bw_hi (Bm LA w method (ttag x)) m a x] (Am LA w method (ttag x) n) n x) as (W & W0 & W1 & W2 & W3 & W4 & W5); auto.
  { apply wf_mat_axis. }
  { lia. }
  eexists. exists W. split; [exact Hi|]. split; [|split; [exact W3|split; [exact W4|split; [exact W2|]]]].
  - unfold sparse_fwt_operator. rewrite E2, E3, (pads_even _ _ Hd). cbn [bmats]. rewrite (even_up_id n He). destruct (bmats LA w method (ttag x) J' (n / 2)) as [|a1 ms]; exact W0.
  - rewrite coeffs_S. exact W5.
Qed.
(** ... and the operator of the inverse transform, applied to that concatenation, gives the reconstruction *)
Theorem C41_ifwt_operator level axis o x o' c r r' y : wf x -> new_mwavedec w level (AxInt axis) method (Some (mode_name m)) = Ok o -> mw_call LA o x = (o', Ok c) ->
  new_mwaverec w (AxInt axis) method = Ok r -> mr_call LA r (pc_items c) = (r', Ok y) ->
  let a := norm_axis (rank x) axis in let n := nth a (shp x) 0%nat in
  Nat.divide (2 ^ (List.length (pc_items c) - 1)) n -> (2 <= List.length (pc_items c))%nat ->
  exists ts z V, pc_items c = map PT ts /\ cat a ts = Ok z /\ sparse_ifwt_operator r' = Ok V /\ s_rows V = n /\ s_cols V = n /\ s_tag V = ttag x /\
    mat_axis (mget V) n a z = y /\ y = x.
Proof.
  intros Hw Ho Hc Hr Hy a n Hd H2.
  assert (Hd2 : Nat.divide 2 n). { destruct (List.length (pc_items c)) as [|[|l]]; try lia. replace (S (S l) - 1)%nat with (S l) in Hd by lia. apply pow_even in Hd as [Hd _]. exists (n / 2)%nat. lia. }
  destruct (call_data level axis o x o' c Hw Ho Hc Hd2) as (J & Hdt & Hax & Hf & Hi & Hlen & E2 & E3). fold a n in Hf, Hi, E2, E3.
  destruct (nonempty_J c J Hlen H2) as [J' ->]. rewrite Hlen in Hd. replace (S (S J') - 1)%nat with (S J') in Hd by lia.
  pose proof (norm_axis_lt _ _ Hax) as Ha. fold a in Ha. destruct (pow_even J' n Hd) as [He Hd'].
  apply new_mr_inv in Hr. subst r.
  destruct (mr_call_ok LA w method m L (ttag x) (HM _) HL Hdl Hrl (Htr _) (mkMR w [axis] method [] None None false []) x axis (S J')) as (r2 & G1 & _ & _ & _ & _ & G2); auto.
  { left. reflexivity. }
  fold a in G1, G2. fold n in G2. rewrite Hi in Hy. rewrite G1 in Hy. pose proof (f_equal snd Hy) as Hy2. pose proof (f_equal fst Hy) as Hy1. cbn [fst snd] in Hy1, Hy2. subst r2.
  destruct (G2 ltac:(lia)) as [G3 G4]. specialize (G4 eq_refl).
  rewrite (ext_even_id m [a] x Hw (good_axes1 _ _ Ha)) in Hy2 by (constructor; [exact He|constructor]).
  assert (y = x) by (destruct (Nat.eqb (S J') 0); apply ok_injM in Hy2; congruence). subst y.
  destruct (fold_ifwt_ok LA w method m L (ttag x) a (HM _) HL J' x n Hw Ha eq_refl Hf Hd) as (V & z & V0 & V1 & V2 & V3 & V4 & V5 & V6 & V7 & V8 & V9).
  eexists. exists z, V. split; [exact Hi|]. split; [exact V5|]. split; [|split; [exact V3|split; [exact V4|split; [exact V2|split; [exact V9|reflexivity]]]]].
  unfold sparse_ifwt_operator. rewrite G3, G4, (even_up_id n He), (pads_even _ _ Hd).
  destruct (map sp_t (bmats LA w method (ttag x) (S J') n)) as [|s0 [|s1 ms]] eqn:Em; [discriminate|exact V0|]. unfold ifwt_of in V0. exact V0.
Qed.
(** no level was computed (the signal is shorter than the filters): there is no operator *)
Theorem C41_no_levels level axis o x o' c : wf x -> new_mwavedec w level (AxInt axis) method (Some (mode_name m)) = Ok o -> mw_call LA o x = (o', Ok c) ->
  Nat.divide 2 (nth (norm_axis (rank x) axis) (shp x) 0%nat) -> List.length (pc_items c) = 1%nat -> sparse_fwt_operator o' = Raise ValueError.
Proof.
  intros Hw Ho Hc Hd H1. destruct (call_data level axis o x o' c Hw Ho Hc Hd) as (J & _ & _ & _ & _ & Hlen & E2 & _). assert (J = 0%nat) by lia. subst J. unfold sparse_fwt_operator. rewrite E2. reflexivity.
Qed.
End C41.
End MO.
