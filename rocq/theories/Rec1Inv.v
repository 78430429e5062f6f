(** Exactly which coefficient lists waverec accepts. *)
From Coq Require Import List Arith ZArith Lia Bool String.
From Coq Require Import ZifyNat ZifyBool.
From Verif Require Import Base Sums Tensor TensorFacts Util Perm Plumb Accept Spec Conv1 PadFacts CoreFacts Analysis AnalysisInv PRKernel Synthesis Filters Wave1 Wave1Inv Rec1.
Import ListNotations.
Ltac Zify.zify_post_hook ::= Z.div_mod_to_equations.

Section RI.
Context {K : CRing}.
Add Ring Kring : (cr_th K).
Implicit Types t u x y lo hi : tensor K.
Implicit Types w : wavelet K.

(** * containers *)
Lemma map_element_PT_inv f (v : pyval K) t' : map_element f v = Ok (PT t') -> exists t, v = PT t /\ f t = Ok t'.
Proof.
  destruct v as [t|l|d|]; cbn; intros H.
  - apply rbind_ok in H as (u & Hu & H). injection H as <-. eauto.
  - exfalso. destruct l as [|a [|b [|c l]]]; cbn in H; try discriminate.
    + apply rbind_ok in H as (? & _ & H). discriminate.
    + apply rbind_ok in H as (? & _ & H). apply rbind_ok in H as (? & _ & H). discriminate.
    + apply rbind_ok in H as (? & _ & H). apply rbind_ok in H as (? & _ & H). apply rbind_ok in H as (? & _ & H). discriminate.
  - exfalso. apply rbind_ok in H as (? & _ & H). discriminate.
  - discriminate.
Qed.

Lemma tree_map_inv (c c' : pycoeffs K) f ts' : coeff_tree_map c f = Ok c' -> pc_items c' = map PT ts' ->
  exists ts, pc_items c = map PT ts /\ Forall2 (fun t t' => f t = Ok t') ts ts'.
Proof.
  unfold coeff_tree_map. intros H Hts. destruct (pc_items c) as [|[t0| | |] rest]; try discriminate.
  apply rbind_ok in H as (a & Ha & H). apply rbind_ok in H as (res & Hres & H).
  assert (Hi : pc_items c' = PT a :: res).
  { destruct res as [|v res]; [injection H as <-; reflexivity|].
    destruct v; injection H as <-; reflexivity. }
  rewrite Hi in Hts. destruct ts' as [|t0' ts']; [discriminate|]. cbn [map] in Hts. injection Hts as <- Hr. subst res.
  apply rmap_inv in Hres.
  assert (Hx : exists ts, rest = map PT ts /\ Forall2 (fun t t' => f t = Ok t') ts ts').
  { clear - Hres. remember (map PT ts') as l eqn:El. revert ts' El.
    induction Hres as [|v v' rest l Hv Hrest IH]; intros ts' El; destruct ts' as [|t' ts']; try discriminate.
    - exists []. split; [reflexivity|constructor].
    - cbn [map] in El. injection El as -> ->. destruct (IH ts' eq_refl) as (ts & -> & HF).
      apply map_element_PT_inv in Hv as (t & -> & Ht). exists (t :: ts). split; [reflexivity|constructor; assumption]. }
  destruct Hx as (ts & -> & HF). exists (t0 :: ts). split; [reflexivity|]. constructor; assumption.
Qed.

Lemma tree_map_list_inv b ts f (c' : pycoeffs K) : coeff_tree_map (mkPC b (map PT ts)) f = Ok c' ->
  Forall (fun t => exists t', f t = Ok t') ts.
Proof.
  unfold coeff_tree_map. cbn [pc_items]. destruct ts as [|t ts]; [constructor|]. cbn [map]. intros H.
  apply rbind_ok in H as (a & Ha & H). apply rbind_ok in H as (res & Hres & H).
  constructor; [eauto|]. apply rmap_inv in Hres. clear - Hres. revert Hres. revert res.
  induction ts as [|t ts IH]; intros res Hres; inversion Hres as [|? v' ? res' Hv Hr]; subst; constructor.
  - cbn in Hv. apply rbind_ok in Hv as (u & Hu & _). eauto.
  - eapply IH; eassumption.
Qed.

Lemma as_tensors_inv (l : list (pyval K)) ts : rmap as_tensor l = Ok ts -> l = map PT ts.
Proof.
  intros H. apply rmap_inv in H. induction H as [|v t l ts Hv H IH]; [reflexivity|]. cbn [map]. rewrite IH. f_equal.
  destruct v; cbn in Hv; try discriminate. injection Hv as <-. reflexivity.
Qed.

Lemma device_eqb_true d d' : device_eqb d d' = true -> d = d'.
Proof. destruct d, d'; cbn; try discriminate; auto; intros H; apply Nat.eqb_eq in H; congruence. Qed.
Lemma dtype_eqb_true d d' : dtype_eqb d d' = true -> d = d'.
Proof. destruct d, d'; cbn; try discriminate; auto. Qed.

Lemma check_same_inv b t ts g : check_same_device_dtype (K := K) (mkPC b (map PT (t :: ts))) = Ok g ->
  g = ttag t /\ Forall (fun u => ttag u = ttag t) ts.
Proof.
  unfold check_same_device_dtype. cbn [pc_items map check_if_tensor rbind]. change (PT t :: map PT ts) with (map PT (t :: ts)).
  intros H. apply rbind_ok in H as (c1 & H1 & H). apply rbind_ok in H as (c2 & H2 & H). injection H as <-. split; [reflexivity|].
  apply tree_map_list_inv in H1. apply tree_map_list_inv in H2.
  inversion H1 as [|? ? _ H1']; subst. inversion H2 as [|? ? _ H2']; subst.
  rewrite Forall_forall in *. intros u Hu. destruct (H1' u Hu) as (u1 & E1). destruct (H2' u Hu) as (u2 & E2).
  unfold check_same_device in E1. destruct (device_eqb _ _) eqn:E1'; [|discriminate]. apply device_eqb_true in E1'.
  unfold check_same_dtype in E2. destruct (dtype_eqb _ _) eqn:E2'; [|discriminate]. apply dtype_eqb_true in E2'.
  unfold tdevice, tdtype in *. destruct (ttag u), (ttag t); cbn in *; congruence.
Qed.

(** * one synthesis step *)
Lemma stack2_inv d lo hi st : stack d [lo; hi] = Ok st -> shp hi = shp lo /\ shp st = insertn d 2 (shp lo).
Proof.
  unfold stack. destruct (forallb _ _) eqn:E; [|discriminate]. intros H. injection H as <-.
  cbn [forallb] in E. rewrite andb_true_r in E. apply andb_true_iff in E as [_ E]. apply list_eqb_spec in E. split; [congruence|reflexivity].
Qed.

Lemma convT1_inv st filt ct s L : shp st = insertn 1 2 s -> shp filt = [2; 1; L] ->
  conv_transpose_nd (K := K) 2 1 0 1 st filt = Ok ct ->
  exists b k, s = [b; k] /\ 1 <= k /\ 1 <= L /\ shp ct = [b; 1; (k - 1) * 2 + L].
Proof.
  intros Hs Hf H. unfold conv_transpose_nd in H. rewrite Hs, Hf in H.
  destruct s as [|b [|k [|z s]]]; cbn [insertn firstn skipn app] in H; try discriminate; try (cbn [List.length Nat.eqb andb] in H; discriminate).
  cbn [map2 forallb List.length Nat.eqb andb] in H.
  destruct (Nat.ltb_spec 0 k) as [Hk|Hk]; [|rewrite ?andb_false_r in H; discriminate].
  destruct (Nat.ltb_spec 0 L) as [HL|HL]; [|cbn [andb] in H; rewrite ?andb_false_r in H; discriminate].
  exists b, k. repeat split; auto.
  match type of H with context [if ?c then _ else _] => destruct c; [|discriminate] end.
  injection H as <-. cbn [shp tmake map2]. unfold convt_out.
  replace ((k - 1) * 2 + 1 * (L - 1) + 1 - 2 * 0) with ((k - 1) * 2 + L) by lia. reflexivity.
Qed.

Lemma waverec_step_inv filt L lo hi next r : shp filt = [2; 1; L] -> 2 <= L -> waverec_step filt L lo hi next = Ok r ->
  exists b k, shp lo = [b; k] /\ shp hi = [b; k] /\ 1 <= k /\
    exists n, shp r = [b; n] /\ fits L k next n.
Proof.
  intros Hf HL H. unfold waverec_step in H. apply rbind_ok in H as (st & Hst & H). apply rbind_ok in H as (ct & Hct & H).
  apply stack2_inv in Hst as [Hs Hst].
  destruct (convT1_inv _ _ _ _ _ Hst Hf Hct) as (b & k & Hlo & Hk & _ & Hsc).
  rewrite Hlo in Hs. exists b, k. split; [exact Hlo|]. split; [exact Hs|]. split; [exact Hk|].
  rewrite pad_value in H by exact HL.
  set (q := squeeze ct 1) in *.
  assert (Hq : shp q = [b; (k - 1) * 2 + L]).
  { unfold q, squeeze. rewrite Hsc. reflexivity. }
  apply rbind_ok in H as ([padr padl] & Hps & H). injection H as <-.
  assert (Hdl : dim_last q 1 = (k - 1) * 2 + L) by (unfold dim_last, rank; rewrite Hq; reflexivity).
  assert (Hrr : rank q = 2) by (unfold rank; rewrite Hq; reflexivity).
  rewrite Hrr. change (2 - 1) with 1.
  set (r1 := if Nat.ltb 0 padl then slice_from q 1 padl else q).
  assert (Hr1s : shp r1 = [b; (k - 1) * 2 + L - padl]).
  { unfold r1. destruct (Nat.ltb_spec 0 padl).
    - unfold slice_from, narrow. rewrite shp_make, Hq. cbn [updn nth]. reflexivity.
    - rewrite Hq. replace ((k - 1) * 2 + L - padl) with ((k - 1) * 2 + L) by lia. reflexivity. }
  assert (Hr1 : rank r1 = 2) by (unfold rank; rewrite Hr1s; reflexivity). rewrite Hr1. change (2 - 1) with 1.
  assert (Hres : shp (if Nat.ltb 0 padr then slice_dropend r1 1 padr else r1) = [b; (k - 1) * 2 + L - padl - padr]).
  { destruct (Nat.ltb_spec 0 padr).
    - unfold slice_dropend, narrow. rewrite shp_make, Hr1s. cbn [updn nth]. reflexivity.
    - rewrite Hr1s. replace ((k - 1) * 2 + L - padl - padr) with ((k - 1) * 2 + L - padl) by lia. reflexivity. }
  eexists. split; [exact Hres|].
  destruct next as [nx|]; cbn [fits].
  - rewrite Hdl in Hps. pose proof (adjust_inv _ _ _ _ HL Hk Hps) as Hfit. split; [|exact Hfit].
    destruct (adjust_fits L k nx HL Hk Hfit) as (pr & E & En). rewrite E in Hps. injection Hps as <- <-. lia.
  - injection Hps as <- <-. lia.
Qed.

Lemma waverec_loop_inv his : forall filt L lo r, shp filt = [2; 1; L] -> 2 <= L -> waverec_loop filt L lo his = Ok r -> his <> [] ->
  Forall (fun t => exists b k, shp t = [b; k]) (lo :: his) /\ lens_fit L (dim_last lo 1) (map (fun t => dim_last t 1) his).
Proof.
  induction his as [|hi his IH]; intros filt L lo r Hf HL H Hne; [congruence|]. cbn [waverec_loop] in H.
  apply rbind_ok in H as (r1 & H1 & H). apply waverec_step_inv in H1 as (b & k & Hlo & Hhi & Hk & n & Hn & Hfit); auto.
  assert (Dlo : dim_last lo 1 = k) by (unfold dim_last, rank; rewrite Hlo; reflexivity).
  assert (Dhi : dim_last hi 1 = k) by (unfold dim_last, rank; rewrite Hhi; reflexivity).
  assert (D1 : dim_last r1 1 = n) by (unfold dim_last, rank; rewrite Hn; reflexivity).
  cbn [map lens_fit]. rewrite Dlo, Dhi.
  destruct his as [|h his]; cbn [fits map] in *.
  - split; [|auto]. constructor; [eauto|constructor; [eauto|constructor]].
  - destruct (IH filt L r1 r Hf HL H ltac:(discriminate)) as [I1 I2]. destruct Hfit as [-> Hfit].
    inversion I1 as [|? ? _ I1']; subst. split.
    + constructor; [eauto|]. constructor; [eauto|]. exact I1'.
    + rewrite D1 in I2. repeat split; auto; apply I2.
Qed.

(** * preprocessing: what happened to one tensor *)
Definition ax_len (axis : Z) (t : tensor K) : nat := nth (norm_axis (rank t) axis) (shp t) 0.

Lemma swap1_inv axis t t1 : swap_axes [axis] t = Ok t1 -> axis_ok (rank t) axis /\ ttag t1 = ttag t /\
  shp t1 = fsz [norm_axis (rank t) axis] (shp t) ++ [ax_len axis t] /\ rank t1 = rank t.
Proof.
  intros H. pose proof (swap_axes_inv _ _ _ H) as Ha. rewrite swap_axes_ok in H by exact Ha. injection H as <-.
  assert (Hax : axis_ok (rank t) axis) by (destruct Ha as [Ha _]; inversion Ha; assumption).
  split; [exact Hax|]. split; [reflexivity|].
  assert (Hs : shp (permute_nat t (perm_of (map (norm_axis (rank t)) [axis]) (rank t))) = fsz [norm_axis (rank t) axis] (shp t) ++ [ax_len axis t])
    by exact (shp_permute_perm_of [norm_axis (rank t) axis] t).
  split; [exact Hs|]. transitivity (List.length (fsz [norm_axis (rank t) axis] (shp t) ++ [ax_len axis t])); [exact (f_equal (@List.length nat) Hs)|].
  rewrite app_length, fsz_length.
  - cbn [List.length]. fold (rank t). pose proof (norm_axis_lt _ _ Hax). lia.
  - apply good_axes1. apply norm_axis_lt. exact Hax.
Qed.

Lemma preprocess_list_inv (coeffs : list (pyval K)) h c ds ts2 :
  preprocess_coeffs (mkPC true coeffs) 1 h false = Ok (c, ds) -> pc_items c = map PT ts2 -> ts2 <> [] ->
  exists axis ts, hint_axes h 1 = Some [axis] /\ coeffs = map PT ts /\
    axis_ok (rank (hd (mkT (float16, cpu) [] []) ts)) axis /\ is_dtype_supported (tdtype (hd (mkT (float16, cpu) [] []) ts)) = true /\
    Forall2 (fun t t2 => ttag t2 = ttag t /\
      forall b k, shp t2 = [b; k] -> axis_ok (rank t) axis /\ ax_len axis t = k) ts ts2.
Proof.
  intros H Hc Hne. unfold preprocess_coeffs in H. cbn [Nat.leb pc_items] in H.
  destruct coeffs as [|v coeffs]; [discriminate|]. apply rbind_ok in H as (t0 & Ht0 & H).
  destruct v as [tt0| | |]; cbn in Ht0; try discriminate. injection Ht0 as <-.
  destruct (is_dtype_supported (tdtype tt0)) eqn:Hd; [|discriminate]. cbn [negb] in H.
  apply rbind_ok in H as (ax & Hax & H). apply ensure_axes_inv in Hax as [Hh Hl].
  destruct ax as [|axis [|? ?]]; try discriminate. exists axis.
  apply rbind_ok in H as (dax & Hdax & H). injection Hdax as <-. change (map _ (seq 0 1)) with [(-1)%Z] in H.
  apply rbind_ok in H as (c1 & Hc1 & H).
  destruct (pc_items c1) as [|[t1| | |] rest1] eqn:Ei1; try discriminate.
  apply rbind_ok in H as (c2 & Hc2 & H). cbn [rbind] in H. injection H as <- <-.
  destruct (Nat.ltb_spec (List.length (shp t1)) 1) as [|Hge]; [discriminate|].
  (* level c1 *)
  assert (Hts1 : exists ts1, pc_items c1 = map PT ts1 /\ Forall2 (fun t t2 => ttag t2 = ttag t /\
      forall b k, shp t2 = [b; k] -> 1 <= rank t /\ dim_last t 1 = k) ts1 ts2).
  { destruct (Nat.eqb_spec (List.length (shp t1)) 1).
    - destruct (tree_map_inv _ _ _ _ Hc2 Hc) as (ts1 & Hi & HF). exists ts1. split; [exact Hi|].
      eapply F2_impl; [|exact HF]. cbv beta. intros t t2 E. injection E as <-. split; [reflexivity|].
      intros b k Hs. cbn in Hs. injection Hs as _ Hs. unfold dim_last, rank. rewrite Hs. cbn. auto.
    - destruct (Nat.ltb_spec (1 + 1) (List.length (shp t1))).
      + destruct (tree_map_inv _ _ _ _ Hc2 Hc) as (ts1 & Hi & HF). exists ts1. split; [exact Hi|].
        eapply F2_impl; [|exact HF]. cbv beta. intros t t2 E. unfold fold_batch, fold_axes in E.
        apply rbind_ok in E as (r & E & E'). injection E' as <-.
        apply rbind_ok in E as (u & E & E'). injection E' as <-. cbn [fst].
        unfold reshape in E. destruct (Nat.eqb _ _); [|discriminate]. injection E as <-. cbn [ttag shp]. split; [reflexivity|].
        intros b k Hs. injection Hs as _ Hs. unfold dim_last, rank.
        destruct (shp t) as [|d s] eqn:Es; [discriminate|]. split; [cbn; lia|].
        assert (E : forall (l : list nat) i, skipn i l = [k] -> nth i l 0 = k).
        { induction l as [|z l IH]; intros [|i] Hik; cbn in *; try discriminate; [congruence|auto]. }
        apply E. exact Hs.
      + injection Hc2 as ->. exists ts2. split; [exact Hc|].
        clear. induction ts2 as [|t ts2 IH]; constructor; auto. split; [reflexivity|].
        intros b k Hs. unfold dim_last, rank. rewrite Hs. cbn. auto. }
  destruct Hts1 as (ts1 & Hi1 & HF1).
  assert (Hts : exists ts, PT tt0 :: coeffs = map PT ts /\ axis_ok (rank tt0) axis /\ Forall2 (fun t t2 => ttag t2 = ttag t /\
      (1 <= rank t2 -> axis_ok (rank t) axis /\ ax_len axis t = dim_last t2 1)) ts ts1).
  { destruct (list_eqb Z.eqb [axis] [(-1)%Z]) eqn:E.
    - apply list_eqb_Z_spec in E. injection E as ->. injection Hc1 as <-. cbn [pc_items] in *.
      exists ts1. split; [exact Hi1|]. split.
      + injection Ei1 as -> _. unfold axis_ok, rank. lia.
      + clear. induction ts1 as [|t ts1 IH]; constructor; auto. split; [reflexivity|]. intros Hr. split; [unfold axis_ok; lia|].
        unfold ax_len, dim_last, norm_axis. cbn [Z.ltb Z.compare]. f_equal. lia.
    - destruct (tree_map_inv _ _ _ _ Hc1 Hi1) as (ts & Hi & HF). exists ts. split; [exact Hi|]. split.
      + destruct ts as [|t ts]; [discriminate|]. cbn [map pc_items] in Hi. injection Hi as -> _. inversion HF as [|? ? ? ? E1 _]; subst.
        apply swap1_inv in E1. apply E1.
      + eapply F2_impl; [|exact HF]. cbv beta. intros t t2 E'. apply swap1_inv in E' as (A1 & A2 & A3 & A4).
        split; [exact A2|]. intros _. split; [exact A1|]. unfold dim_last, rank. rewrite A3, app_length. cbn [List.length].
        replace (Datatypes.length (fsz [norm_axis (rank t) axis] (shp t)) + 1 - 1) with (Datatypes.length (fsz [norm_axis (rank t) axis] (shp t))) by lia.
        rewrite app_nth2 by lia. rewrite Nat.sub_diag. reflexivity. }
  destruct Hts as (ts & Hi & Hax0 & HF). exists ts. split; [exact Hh|]. split; [exact Hi|].
  destruct ts as [|u0 ts]; [discriminate|]. cbn [map] in Hi. injection Hi as <- Hi. cbn [hd].
  split; [exact Hax0|]. split; [exact Hd|].
  set (all := tt0 :: ts) in *. clearbody all. clear - HF HF1. revert ts2 HF1. induction HF as [|t t1 us us1 H1 HF IH]; intros ts2 HF1; inversion HF1 as [|? t2 ? ts2' H2 HF2]; subst; constructor.
  - destruct H1 as [A1 A2], H2 as [B1 B2]. split; [congruence|]. intros b k Hs. destruct (B2 b k Hs) as [B3 B4].
    destruct (A2 B3) as [A3 A4]. split; [exact A3|congruence].
  - apply IH. exact HF2.
Qed.

(** Everything waverec accepts.  No assumption on the coefficients at all. *)
Theorem waverec_inv coeffs w L h y : List.length (rec_lo w) = L -> List.length (rec_hi w) = L -> 2 <= L ->
  waverec coeffs w h = Ok y ->
  exists axis lo his, hint_axes h 1 = Some [axis] /\ coeffs = map PT (lo :: his) /\
    is_dtype_supported (tdtype lo) = true /\ Forall (fun t => ttag t = ttag lo) his /\
    Forall (fun t => axis_ok (rank t) axis) (lo :: his) /\
    lens_fit L (ax_len axis lo) (map (ax_len axis) his).
Proof.
  intros H1 H2 HL H. unfold waverec in H. apply rbind_ok in H as ([c ds] & Hpp & H).
  apply rbind_ok in H as (g & Hg & H). cbn [get_filter_tensors] in H. apply rbind_ok in H as (filt & Hf & H).
  apply rbind_ok in H as (ts2 & Hts & H). apply as_tensors_inv in Hts.
  destruct ts2 as [|lo2 his2]; [discriminate|]. apply rbind_ok in H as (r & Hloop & _).
  destruct (preprocess_list_inv coeffs h c ds (lo2 :: his2) Hpp Hts ltac:(discriminate)) as (axis & ts & Hh & Hc & Hax & Hd & HF).
  destruct ts as [|lo his]; [inversion HF|]. cbn [hd] in Hax, Hd. exists axis, lo, his.
  inversion HF as [|? ? ? ? Hlo HF']; subst.
  assert (Hgc : check_same_device_dtype (mkPC (pc_is_list c) (map PT (lo2 :: his2))) = Ok g).
  { rewrite <- Hts. destruct c; exact Hg. }
  apply check_same_inv in Hgc as [-> Htags].
  destruct (filt_nd 1 (rec_lo w) (rec_hi w) false (ttag lo2) (List.length (rec_lo w)) ltac:(lia) eq_refl H2) as (f & Hf1 & Hf2 & _).
  cbn [construct_nd_filt] in Hf1. unfold construct_1d_filt in Hf1. rewrite Hf in Hf1. injection Hf1 as <-.
  change (dim_last (create_tensor (rec_lo w) false (ttag lo2)) 1) with (List.length (rec_lo w)) in Hloop.
  split; [exact Hh|]. split; [reflexivity|]. split; [exact Hd|].
  split.
  { destruct Hlo as [Hlo _]. clear - HF' Htags Hlo. rewrite Hlo in Htags. clear Hlo. revert Htags.
    induction HF' as [|t t2 us us2 [Ht _] HF IH]; intros Htags; constructor; inversion Htags; subst; [congruence|auto]. }
  destruct his2 as [|hi2 his2].
  { inversion HF'; subst. split; [constructor; [exact Hax|constructor]|exact I]. }
  apply waverec_loop_inv in Hloop as [Hsh Hfit]; [|exact Hf2|exact HL|discriminate].
  assert (Hb : Forall2 (fun t t2 => axis_ok (rank t) axis /\ ax_len axis t = dim_last t2 1) (lo :: his) (lo2 :: hi2 :: his2)).
  { clear - HF Hsh. induction HF as [|t t2 us us2 [_ Ht] HF IH]; constructor; inversion Hsh as [|? ? Hs Hsh']; subst; [|auto].
    destruct Hs as (b & k & Hs). destruct (Ht b k Hs) as [A B]. split; [exact A|]. rewrite B. unfold dim_last, rank. rewrite Hs. reflexivity. }
  split.
  { clear - Hb. induction Hb as [|t t2 us us2 [A _] Hb IH]; constructor; auto. }
  inversion Hb as [|? ? ? ? [_ El] Hb']; subst. rewrite El.
  replace (map (ax_len axis) his) with (map (fun t => dim_last t 1) (hi2 :: his2)); [exact Hfit|].
  clear - Hb'. induction Hb' as [|t t2 us us2 [_ A] Hb IH]; [reflexivity|]. cbn [map]. rewrite IH, A. reflexivity.
Qed.

End RI.
