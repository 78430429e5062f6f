(** Property theorems for the 1d padded transform (wavedec / waverec) and the plumbing. *)
From Coq Require Import List Arith ZArith Lia Bool String.
From Coq Require Import ZifyNat ZifyBool.
From Verif Require Import Base Sums Tensor TensorFacts Util Perm Plumb Accept Spec Conv1 PadFacts CoreFacts Analysis AnalysisInv PRKernel Synthesis Filters Wave1 Wave1Inv Rec1 Rec1Inv Lin Examples.
Import ListNotations.
Ltac Zify.zify_post_hook ::= Z.div_mod_to_equations.

Section P1.
Context {K : CRing}.
Add Ring Kring : (cr_th K).
Implicit Types t u x y : tensor K.
Implicit Types w : wavelet K.

Lemma ok_inj {A} (p q : A) : Ok p = Ok q -> p = q.
Proof. intros H. injection H as H. exact H. Qed.

(** mode=None is the reflect mode (_util.py:63-64) *)
Theorem mode_none_is_reflect x w level axis :
  wavedec x w None level axis = wavedec x w (Some (mode_name Mreflect)) level axis.
Proof.
  unfold wavedec. destruct (preprocess_deconstruction x w 1 (AxInt axis)) as [[[[[d ds] dlo] dhi] filt]|e]; [|reflexivity].
  cbn [rbind]. assert (E : forall n lo acc, wavedec_loop n w None filt lo acc = wavedec_loop n w (Some (mode_name Mreflect)) filt lo acc).
  { induction n as [|n IH]; intros lo acc; [reflexivity|]. cbn [wavedec_loop].
    change (fwt_pad lo w None None) with (fwt_pad lo w (Some (mode_name Mreflect)) None).
    destruct (fwt_pad lo w _ None) as [p|]; [|reflexivity]. cbn [rbind].
    destruct (conv_nd 2 1 p filt) as [r|]; [|reflexivity]. cbn [rbind].
    destruct (split1 r 1) as [|a [|b [|]]]; try reflexivity. apply IH. }
  destruct level as [z|].
  - cbn [rbind]. rewrite E. reflexivity.
  - destruct (dwt_max_level (dim_last d 1) (dim_last dlo 1)); [|reflexivity]. cbn [rbind]. rewrite E. reflexivity.
Qed.

(** ** C01, C02 *)
Theorem C01_C02_reconstruction x w m L level axis c :
  cancel2 K -> pr_bank (dec_lo w) (dec_hi w) (rec_lo w) (rec_hi w) L -> wf x ->
  wavedec x w (Some (mode_name m)) level axis = Ok c ->
  let a := norm_axis (rank x) axis in
  waverec (pc_items c) w (AxInt axis) = Ok (if Nat.eqb (List.length (pc_items c)) 1 then x else ext_even m [a] x).
Proof.
  intros Hc Hpr Hw H a. pose proof (pr_len _ _ _ _ _ Hpr) as (H1 & H2 & H3 & H4). pose proof (pr_two _ _ _ _ _ Hpr) as HL.
  pose proof (pr_even _ _ _ _ _ Hpr) as He.
  destruct (wavedec_inv x w m L level axis c Hw H1 H2 HL He H) as (Hd & Hax & J & Hlev & Hok).
  rewrite (wavedec_ok x w m L J level axis) in H by auto. apply ok_inj in H. subst c. cbn [pc_items].
  rewrite (waverec_wavedec_spec w m L J axis x (AxInt axis)); auto.
  unfold wavedec_spec. cbn [map]. cbn [List.length]. rewrite !map_length, rev_length, seq_length.
  destruct J; reflexivity.
Qed.

Theorem C01_perfect_reconstruction x w m L level axis c :
  cancel2 K -> pr_bank (dec_lo w) (dec_hi w) (rec_lo w) (rec_hi w) L -> wf x ->
  wavedec x w (Some (mode_name m)) level axis = Ok c ->
  exists y, waverec (pc_items c) w (AxInt axis) = Ok y /\ agrees_on x y.
Proof.
  intros Hc Hpr Hw H. pose proof (C01_C02_reconstruction x w m L level axis c Hc Hpr Hw H) as E. cbv zeta in E.
  destruct (wavedec_inv x w m L level axis c Hw (proj1 (pr_len _ _ _ _ _ Hpr)) (proj1 (proj2 (pr_len _ _ _ _ _ Hpr)))
    (pr_two _ _ _ _ _ Hpr) (pr_even _ _ _ _ _ Hpr) H) as (Hd & Hax & _).
  eexists. split; [exact E|]. destruct (Nat.eqb _ 1); [apply agrees_refl|].
  apply ext_even_agrees; [exact Hw|]. apply good_axes1. apply norm_axis_lt. exact Hax.
Qed.

(** every entry of the reconstruction is the boundary extension of x (one dimension, index a) *)
Definition ext1 (m : mode) (n : nat) (X : nat -> K) (z : Z) : K :=
  match ext_idx m n z with Some i => X i | None => kzero end.

Theorem C02_length_and_trailing_sample x w m L level axis c y :
  cancel2 K -> pr_bank (dec_lo w) (dec_hi w) (rec_lo w) (rec_hi w) L -> wf x ->
  wavedec x w (Some (mode_name m)) level axis = Ok c ->
  waverec (pc_items c) w (AxInt axis) = Ok y ->
  let a := norm_axis (rank x) axis in
  let n := nth a (shp x) 0 in
  (* sizes: only the transformed axis may grow, by one iff n is odd and a level was computed *)
  shp y = updn a (if Nat.eqb (List.length (pc_items c)) 1 then n else n + n mod 2) (shp x) /\
  (* the extra sample is the first sample of the right extension *)
  (forall idx, valid idx (shp y) -> nth a idx 0 = n ->
     get y idx = ext1 m n (fun i => get x (updn a i idx)) (Z.of_nat n)).
Proof.
  intros Hc Hpr Hw H Hy a n. rewrite (C01_C02_reconstruction x w m L level axis c Hc Hpr Hw H) in Hy. injection Hy as <-.
  destruct (wavedec_inv x w m L level axis c Hw (proj1 (pr_len _ _ _ _ _ Hpr)) (proj1 (proj2 (pr_len _ _ _ _ _ Hpr)))
    (pr_two _ _ _ _ _ Hpr) (pr_even _ _ _ _ _ Hpr) H) as (Hd & Hax & _).
  assert (Ha : a < rank x) by (apply norm_axis_lt; exact Hax). fold a.
  destruct (Nat.eqb _ 1).
  - split; [symmetry; apply updn_same|]. intros idx Hv Hn. pose proof (valid_nth _ _ a Hv Ha) as Hlt. fold n in Hlt. lia.
  - split; [rewrite shp_ext_even; reflexivity|]. intros idx Hv Hn. rewrite ext_even_get; auto using good_axes1.
    cbn [gather map]. rewrite Hn. fold n. unfold ext_get, ext1. cbn [ext_idxs]. destruct (ext_idx m n (Z.of_nat n)); reflexivity.
Qed.

(** ** C03: the DWT formula, stated entrywise *)
Theorem C03_wavedec_is_dwt x w m L level axis c :
  wf x -> List.length (dec_lo w) = L -> List.length (dec_hi w) = L -> 2 <= L -> Nat.even L = true ->
  wavedec x w (Some (mode_name m)) level axis = Ok c ->
  let a := norm_axis (rank x) axis in
  exists (J : nat) (A D : nat -> tensor K),
    A 0 = x /\
    pc_items c = map PT (A J :: map D (rev (seq 1 J))) /\
    forall j, j < J ->
      let n := nth a (shp (A j)) 0 in
      (forall idx, valid idx (shp (A (S j))) ->
         get (A (S j)) idx = sumf L (fun i => kmul (nth i (dec_lo w) kzero)
            (ext1 m n (fun p => get (A j) (updn a p idx)) (2 * Z.of_nat (nth a idx 0%nat) + 1 - Z.of_nat i)))) /\
      (forall idx, valid idx (shp (D (S j))) ->
         get (D (S j)) idx = sumf L (fun i => kmul (nth i (dec_hi w) kzero)
            (ext1 m n (fun p => get (A j) (updn a p idx)) (2 * Z.of_nat (nth a idx 0%nat) + 1 - Z.of_nat i)))).
Proof.
  intros Hw H1 H2 HL He H a.
  destruct (wavedec_inv x w m L level axis c Hw H1 H2 HL He H) as (Hd & Hax & J & Hlev & Hok).
  rewrite (wavedec_ok x w m L J level axis) in H by auto. apply ok_inj in H. subst c. cbn [pc_items].
  assert (Ha : a < rank x) by (apply norm_axis_lt; exact Hax).
  exists J, (fun j => approx (dec_lo w) m [a] j x), (fun j => detail (dec_lo w) [dec_hi w] m [a] j x).
  split; [reflexivity|]. split; [reflexivity|]. intros j Hj. cbv beta. set (n := nth a (shp (approx (dec_lo w) m [a] j x)) 0).
  assert (G : forall f idx, List.length f = L -> valid idx (shp (dwt_axes [f] m [a] (approx (dec_lo w) m [a] j x))) ->
    get (dwt_axes [f] m [a] (approx (dec_lo w) m [a] j x)) idx = sumf L (fun i => kmul (nth i f kzero)
            (ext1 m n (fun p => get (approx (dec_lo w) m [a] j x) (updn a p idx)) (2 * Z.of_nat (nth a idx 0%nat) + 1 - Z.of_nat i)))).
  { intros f idx Hf Hv. unfold dwt_axes, along_axes in *. rewrite shp_make in Hv. rewrite get_make by exact Hv.
    unfold dwt_op. cbn [map sumI]. rewrite Hf. apply sumf_ext. intros i Hi. cbn [gather map taps map2].
    unfold ext_get, ext1. cbn [ext_idxs]. fold n. destruct (ext_idx m n _) as [p|]; cbn [upds]; ring. }
  split; intros idx Hv.
  - apply G; [exact H1|]. exact Hv.
  - unfold detail in *. replace (S j - 1) with j in * by lia. apply G; [exact H2|]. exact Hv.
Qed.

(** ** C04 *)
Theorem C04_number_and_sizes x w m L level axis c :
  wf x -> List.length (dec_lo w) = L -> List.length (dec_hi w) = L -> 2 <= L -> Nat.even L = true ->
  wavedec x w (Some (mode_name m)) level axis = Ok c ->
  let a := norm_axis (rank x) axis in
  let n := nth a (shp x) 0 in
  exists ts, pc_items c = map PT ts /\
    let J := match level with
             | Some z => Z.to_nat z
             | None => if Nat.ltb n (L - 1) then 0 else Nat.log2 (n / (L - 1)) end in
    map (fun t => shp t) ts
    = map (fun j => updn a (len_after L j n) (shp x)) (J :: rev (seq 1 J)).
Proof.
  intros Hw H1 H2 HL He H a n.
  destruct (wavedec_inv x w m L level axis c Hw H1 H2 HL He H) as (Hd & Hax & J & Hlev & Hok).
  rewrite (wavedec_ok x w m L J level axis) in H by auto. apply ok_inj in H. subst c. cbn [pc_items]. fold a n in Hlev, Hok |- *.
  assert (Ha : a < rank x) by (apply norm_axis_lt; exact Hax).
  eexists. split; [reflexivity|].
  assert (EJ : match level with Some z => Z.to_nat z | None => if Nat.ltb n (L - 1) then 0 else Nat.log2 (n / (L - 1)) end = J).
  { destruct level as [z|]; cbn [lev_of] in Hlev; [symmetry; exact Hlev|]. unfold dwt_max_level in Hlev.
    destruct (Nat.ltb_spec L 2); [lia|]. destruct (Nat.ltb n (L - 1)); injection Hlev as <-; reflexivity. }
  cbv zeta. rewrite EJ.
  assert (HA : forall j, shp (approx (dec_lo w) m [a] j x) = updn a (len_after L j n) (shp x)).
  { intros j. apply (shp_eq_fsz [a]).
    - rewrite updn_length. apply good_axes1. exact Ha.
    - rewrite updn_length. apply (approx_rank (dec_lo w) m [a] j x).
    - rewrite approx_fsz by (apply good_axes1; exact Ha). unfold fsz. rewrite updn_length. symmetry.
      apply (gather_upds_notin _ [a] [len_after L j n]). intros d Hdd. apply in_front in Hdd. tauto.
    - rewrite (approx_sizes _ _ L) by (auto using good_axes1). cbn. rewrite nth_updn_eq by exact Ha. reflexivity. }
  unfold wavedec_spec. cbn [map]. f_equal; [apply HA|]. rewrite map_map. apply map_ext_in. intros j Hj.
  apply in_rev, in_seq in Hj. unfold detail, dwt_axes, along_axes. rewrite shp_make, HA. cbn [map map2 upds gather].
  rewrite nth_updn_eq by exact Ha. rewrite H2, <- len_after_S. replace (S (j - 1)) with j by lia.
  apply updn_updn.
Qed.

(** ** C05 *)
Theorem C05_wavedec_linear x y w m L level axis cx cy a b :
  wf x -> wf y -> shp y = shp x -> List.length (dec_lo w) = L -> List.length (dec_hi w) = L -> 2 <= L -> Nat.even L = true ->
  wavedec x w (Some (mode_name m)) level axis = Ok (mkPC true (map PT cx)) ->
  wavedec y w (Some (mode_name m)) level axis = Ok (mkPC true (map PT cy)) ->
  wavedec (tlin a b x y) w (Some (mode_name m)) level axis = Ok (mkPC true (map PT (map2 (tlin a b) cx cy))).
Proof.
  intros Hwx Hwy Hs H1 H2 HL He Hx Hy.
  destruct (wavedec_inv x w m L level axis _ Hwx H1 H2 HL He Hx) as (Hd & Hax & J & Hlev & Hok).
  destruct (wavedec_inv y w m L level axis _ Hwy H1 H2 HL He Hy) as (Hd' & Hax' & J' & Hlev' & Hok').
  assert (Hr : rank y = rank x) by (unfold rank; rewrite Hs; reflexivity).
  rewrite Hr, Hs in *. pose proof (lev_of_fun _ _ _ _ _ Hlev Hlev') as <-.
  rewrite (wavedec_ok x w m L J level axis) in Hx by auto.
  rewrite (wavedec_ok y w m L J level axis) in Hy by (rewrite ?Hr, ?Hs; auto).
  rewrite (wavedec_ok (tlin a b x y) w m L J level axis); auto using wf_tlin.
  change (rank (tlin a b x y)) with (rank x). rewrite wavedec_spec_lin by assumption.
  assert (inj : forall l l' : list (tensor K), Ok (mkPC true (map PT l)) = Ok (mkPC true (map PT l')) -> l = l').
  { intros l l' E. injection E as E. revert l' E. induction l as [|p l IH]; intros [|q l'] E; cbn in E; try discriminate; [reflexivity|].
    injection E as -> E. f_equal. auto. }
  rewrite Hr in Hy. apply inj in Hx, Hy. subst cx cy. reflexivity.
Qed.

Lemma Forall2_shapes (his his' : list (tensor K)) : Forall wf his -> Forall wf his' ->
  map (fun t => shp t) his' = map (fun t => shp t) his ->
  Forall2 (fun h h' : tensor K => wf h /\ wf h' /\ shp h' = shp h) his his'.
Proof.
  revert his'. induction his as [|h his IH]; intros [|h' his'] A B E; try discriminate; constructor.
  - inversion A; inversion B; subst. injection E as E _. auto.
  - inversion A; inversion B; subst. injection E as _ E. auto.
Qed.

Theorem C05_waverec_linear lo lo' his his' w L axis a b y y' :
  Forall wf (lo :: his) -> Forall wf (lo' :: his') ->
  map (fun t => shp t) (lo' :: his') = map (fun t => shp t) (lo :: his) ->
  List.length (rec_lo w) = L -> List.length (rec_hi w) = L -> 2 <= L ->
  (* the details have the approximation's batch dimensions *)
  Forall (fun h : tensor K => rank h = rank lo /\ forall d, d <> norm_axis (rank lo) axis -> nth d (shp h) 0 = nth d (shp lo) 0) his ->
  waverec (map PT (lo :: his)) w (AxInt axis) = Ok y ->
  waverec (map PT (lo' :: his')) w (AxInt axis) = Ok y' ->
  waverec (map PT (map2 (tlin a b) (lo :: his) (lo' :: his'))) w (AxInt axis) = Ok (tlin a b y y').
Proof.
  intros Hwf Hwf' Hs H1 H2 HL Hb Hy Hy'.
  destruct (waverec_inv _ w L _ y H1 H2 HL Hy) as (ax & lo0 & his0 & Eh & Ec & Hd & Ht & Hax & Hfit).
  destruct (waverec_inv _ w L _ y' H1 H2 HL Hy') as (ax' & lo0' & his0' & Eh' & Ec' & Hd' & Ht' & Hax' & Hfit').
  cbn in Eh, Eh'. injection Eh as <-. injection Eh' as <-.
  assert (inj : forall l l' : list (tensor K), map PT l = map PT l' -> l = l').
  { induction l as [|p l IH]; intros [|q l'] E; cbn in E; try discriminate; [reflexivity|].
    injection E as -> E. f_equal. auto. }
  apply inj in Ec, Ec'. injection Ec as <- <-. injection Ec' as <- <-.
  inversion Hwf as [|? ? Hwl Hwh]; subst. inversion Hwf' as [|? ? Hwl' Hwh']; subst.
  cbn [map] in Hs. injection Hs as Hsl Hsh.
  set (a0 := norm_axis (rank lo) axis) in *.
  inversion Hax as [|? ? Hal Hah]; subst. inversion Hax' as [|? ? Hal' Hah']; subst.
  assert (Ha : a0 < rank lo) by (apply norm_axis_lt; exact Hal). pose proof (good_axes1 _ _ Ha) as Hg.
  assert (Hr' : rank lo' = rank lo) by (unfold rank; rewrite Hsl; reflexivity).
  assert (Hfsz : Forall (fun h : tensor K => rank h = rank lo /\ fsz [a0] (shp h) = fsz [a0] (shp lo)) his).
  { eapply Forall_impl; [|exact Hb]. cbv beta. intros h [Hrh Hh]. split; [exact Hrh|]. unfold fsz.
    unfold rank in Hrh. rewrite Hrh. unfold gather. apply map_ext_in. intros d Hdd. apply in_front in Hdd. apply Hh. intros ->. apply (proj2 Hdd). left. reflexivity. }
  assert (HF2 := Forall2_shapes his his' Hwh Hwh' Hsh).
  assert (Hlens : forall l l' : list (tensor K), map (fun t => shp t) l' = map (fun t => shp t) l -> map (ax_len axis) l' = map (ax_len axis) l).
  { intros l l' E. assert (E2 : map (fun s => nth (norm_axis (List.length s) axis) s 0) (map (fun t : tensor K => shp t) l')
       = map (fun s => nth (norm_axis (List.length s) axis) s 0) (map (fun t : tensor K => shp t) l)) by (rewrite E; reflexivity).
    rewrite !map_map in E2. exact E2. }
  assert (Hal0 : forall l : list (tensor K), Forall (fun h : tensor K => rank h = rank lo /\ fsz [a0] (shp h) = fsz [a0] (shp lo)) l ->
     map (ax_len axis) l = map (alen a0) l).
  { intros l HF. apply map_ext_in. intros h Hh. rewrite Forall_forall in HF. destruct (HF h Hh) as [Hrh _].
    unfold ax_len, alen. rewrite Hrh. reflexivity. }
  change (ax_len axis lo) with (alen a0 lo) in Hfit. rewrite (Hal0 his Hfsz) in Hfit.
  assert (Hfsz' : Forall (fun h : tensor K => rank h = rank lo /\ fsz [a0] (shp h) = fsz [a0] (shp lo)) his').
  { clear - HF2 Hfsz. induction HF2 as [|h h' l l' (P & Q & R) _ IH]; [constructor|].
    inversion Hfsz as [|? ? [A B] C]; subst. constructor; [|auto]. unfold rank in *. rewrite R. auto. }
  rewrite (waverec_ok lo his w (List.length (rec_lo w)) axis) in Hy; auto.
  2:{ apply Forall_forall. intros t Hit. rewrite Forall_forall in Hfsz, Ht, Hwh. destruct (Hfsz t Hit). auto. }
  rewrite (waverec_ok lo' his' w (List.length (rec_lo w)) axis) in Hy'; auto.
  2:{ rewrite Hr'. fold a0. apply Forall_forall. intros t Hit. rewrite Forall_forall in Hfsz', Ht', Hwh'. destruct (Hfsz' t Hit) as [P Q].
      rewrite Hsl. auto. }
  2:{ rewrite Hr'. fold a0. rewrite <- (Hal0 his' Hfsz').
      replace (alen a0 lo') with (ax_len axis lo'); [exact Hfit'|]. unfold ax_len, alen. rewrite Hr'. reflexivity. }
  injection Hy as <-. injection Hy' as <-. rewrite Hr'. fold a0.
  cbn [map2]. rewrite (waverec_ok (tlin a b lo lo') (map2 (tlin a b) his his') w (List.length (rec_lo w)) axis); auto using wf_tlin.
  - change (rank (tlin a b lo lo')) with (rank lo). fold a0. f_equal. apply waverec_spec_lin; assumption.
  - change (rank (tlin a b lo lo')) with (rank lo). fold a0. change (shp (tlin a b lo lo')) with (shp lo). change (ttag (tlin a b lo lo')) with (ttag lo).
    clear - HF2 Hfsz Ht. induction HF2 as [|h h' l l' (P & Q & R) _ IH]; cbn [map2]; [constructor|].
    inversion Hfsz as [|? ? [A B] C]; subst. inversion Ht as [|? ? T1 T2]; subst. constructor; [|auto].
    split; [apply wf_tlin; auto|]. change (rank (tlin a b h h')) with (rank h). change (shp (tlin a b h h')) with (shp h). change (ttag (tlin a b h h')) with (ttag h). auto.
  - change (rank (tlin a b lo lo')) with (rank lo). fold a0. change (alen a0 (tlin a b lo lo')) with (alen a0 lo).
    replace (map (alen a0) (map2 (tlin a b) his his')) with (map (alen a0) his); [exact Hfit|].
    clear - HF2. induction HF2 as [|h h' l l' (P & Q & R) _ IH]; cbn [map map2]; [reflexivity|]. f_equal. exact IH.
Qed.

(** ** C06 *)
Theorem C06_wavedec_fibrewise x w m L level axis cs idx :
  wf x -> List.length (dec_lo w) = L -> List.length (dec_hi w) = L -> 2 <= L -> Nat.even L = true ->
  wavedec x w (Some (mode_name m)) level axis = Ok (mkPC true (map PT cs)) ->
  let a := norm_axis (rank x) axis in
  fib_ok [a] idx (shp x) ->
  wavedec (fibre [a] idx x) w (Some (mode_name m)) level (-1) = Ok (mkPC true (map PT (map (fibre [a] idx) cs))).
Proof.
  intros Hw H1 H2 HL He H a Hf.
  destruct (wavedec_inv x w m L level axis _ Hw H1 H2 HL He H) as (Hd & Hax & J & Hlev & Hok).
  rewrite (wavedec_ok x w m L J level axis) in H by auto.
  assert (inj : forall l l' : list (tensor K), Ok (mkPC true (map PT l)) = Ok (mkPC true (map PT l')) -> l = l').
  { intros l l' E. injection E as E. revert l' E. induction l as [|p l IH]; intros [|q l'] E; cbn in E; try discriminate; [reflexivity|].
    injection E as -> E. f_equal. auto. }
  apply inj in H. subst cs. fold a.
  assert (Ha : a < rank x) by (apply norm_axis_lt; exact Hax).
  rewrite (fibre_wavedec_spec (dec_lo w) (dec_hi w) m L a idx J x); auto.
  rewrite (wavedec_ok (fibre [a] idx x) w m L J level (-1)); auto.
  - apply wf_fibre.
  - unfold axis_ok. rewrite rank_fibre. cbn. lia.
Qed.

Theorem C06_waverec_fibrewise lo his w L axis idx y :
  Forall wf (lo :: his) -> List.length (rec_lo w) = L -> List.length (rec_hi w) = L -> 2 <= L ->
  let a := norm_axis (rank lo) axis in
  Forall (fun h : tensor K => rank h = rank lo /\ forall d, d <> a -> nth d (shp h) 0 = nth d (shp lo) 0) his ->
  waverec (map PT (lo :: his)) w (AxInt axis) = Ok y ->
  fib_ok [a] idx (shp lo) ->
  waverec (map PT (map (fibre [a] idx) (lo :: his))) w (AxInt (-1)) = Ok (fibre [a] idx y).
Proof.
  intros Hwf H1 H2 HL a Hb Hy Hf.
  destruct (waverec_inv _ w L _ y H1 H2 HL Hy) as (ax & lo0 & his0 & Eh & Ec & Hd & Ht & Hax & Hfit).
  cbn in Eh. injection Eh as <-.
  assert (inj : forall l l' : list (tensor K), map PT l = map PT l' -> l = l').
  { induction l as [|p l IH]; intros [|q l'] E; cbn in E; try discriminate; [reflexivity|].
    injection E as -> E. f_equal. auto. }
  apply inj in Ec. injection Ec as <- <-. inversion Hwf as [|? ? Hwl Hwh]; subst. inversion Hax as [|? ? Hal Hah]; subst.
  assert (Ha : a < rank lo) by (apply norm_axis_lt; exact Hal).
  assert (Hfsz : Forall (fun h : tensor K => rank h = rank lo /\ fsz [a] (shp h) = fsz [a] (shp lo)) his).
  { eapply Forall_impl; [|exact Hb]. cbv beta. intros h [Hrh Hh]. split; [exact Hrh|]. unfold fsz.
    unfold rank in Hrh. rewrite Hrh. unfold gather. apply map_ext_in. intros d Hdd. apply in_front in Hdd. apply Hh. intros ->. apply (proj2 Hdd). left. reflexivity. }
  assert (Hal0 : map (ax_len axis) his = map (alen a) his).
  { apply map_ext_in. intros h Hh. rewrite Forall_forall in Hfsz. destruct (Hfsz h Hh) as [Hrh _].
    unfold ax_len, alen. rewrite Hrh. reflexivity. }
  change (ax_len axis lo) with (alen a lo) in Hfit. rewrite Hal0 in Hfit.
  rewrite (waverec_ok lo his w (List.length (rec_lo w)) axis) in Hy; auto.
  2:{ apply Forall_forall. intros t Hit. rewrite Forall_forall in Hfsz, Ht, Hwh. destruct (Hfsz t Hit). auto. }
  injection Hy as <-. fold a. rewrite fibre_waverec_spec by assumption.
  cbn [map]. change (PT (fibre [a] idx lo) :: map PT (map (fibre [a] idx) his)) with (map PT (fibre [a] idx lo :: map (fibre [a] idx) his)).
  rewrite (waverec_ok (fibre [a] idx lo) (map (fibre [a] idx) his) w (List.length (rec_lo w)) (-1) (AxInt (-1))); auto.
  - apply wf_fibre.
  - unfold axis_ok. rewrite rank_fibre. cbn. lia.
  - apply Forall_map. apply Forall_forall. intros t Hit. rewrite Forall_forall in Ht. rewrite !rank_fibre. 
    split; [apply wf_fibre|]. split; [reflexivity|]. split; [reflexivity|]. cbn. apply Ht. exact Hit.
  - rewrite map_map. exact Hfit.
Qed.

(** ** C07 *)
Theorem C07_default_level x w m L axis :
  wf x -> is_dtype_supported (tdtype x) = true -> axis_ok (rank x) axis ->
  List.length (dec_lo w) = L -> List.length (dec_hi w) = L -> 2 <= L -> Nat.even L = true ->
  let n := nth (norm_axis (rank x) axis) (shp x) 0 in
  1 <= n ->
  let J := if Nat.ltb n (L - 1) then 0 else Nat.log2 (n / (L - 1)) in
  exists c, wavedec x w (Some (mode_name m)) None axis = Ok c /\ List.length (pc_items c) = J + 1 /\
            wavedec x w (Some (mode_name m)) (Some (Z.of_nat J)) axis = Ok c.
Proof.
  intros Hw Hd Hax H1 H2 HL He n Hn J.
  assert (HJ : dwt_max_level n L = Ok J).
  { unfold dwt_max_level, J. destruct (Nat.ltb_spec L 2); [lia|]. destruct (Nat.ltb n (L - 1)); reflexivity. }
  assert (Hok : levels_ok m L J n).
  { destruct (dwt_max_level_pow n L J HL HJ) as [E|E]; [rewrite E; intros j Hj; lia|]. apply levels_ok_pow; auto. }
  rewrite (wavedec_ok x w m L J None axis); auto.
  rewrite (wavedec_ok x w m L J (Some (Z.of_nat J)) axis); auto.
  2:{ cbn. lia. }
  eexists. split; [reflexivity|]. split; [|reflexivity].
  unfold wavedec_spec. cbn [pc_items map List.length]. rewrite !map_length, rev_length, seq_length. lia.
Qed.

(** ** C08 *)
(** the padding on one side needed at the level whose input has length n *)
Definition pad_need (L n : nat) : nat := L - 2 + n mod 2.
Theorem C08_which_levels x w m L z axis :
  wf x -> is_dtype_supported (tdtype x) = true -> axis_ok (rank x) axis ->
  List.length (dec_lo w) = L -> List.length (dec_hi w) = L -> 2 <= L -> Nat.even L = true ->
  let n := nth (norm_axis (rank x) axis) (shp x) 0 in
  1 <= n ->
  (* some level j < z whose input has length n_j needs too much padding *)
  let bad := exists j, (Z.of_nat j < z)%Z /\
     match m with
     | Mreflect => len_after L j n <= pad_need L (len_after L j n)
     | Mperiodic => len_after L j n < pad_need L (len_after L j n)
     | _ => False
     end in
  (bad -> wavedec x w (Some (mode_name m)) (Some z) axis = Raise RuntimeError) /\
  (~ bad -> exists c, wavedec x w (Some (mode_name m)) (Some z) axis = Ok c).
Proof.
  intros Hw Hd Hax H1 H2 HL He n Hn bad.
  assert (Hpos : forall j, 0 < len_after L j n).
  { intros j. induction j as [|j IH]; [exact Hn|]. rewrite len_after_S. apply dwt_len_pos; assumption. }
  assert (Hdi := wavedec_dich x w m L (Z.to_nat z) (Some z) axis Hw Hd Hax H1 H2 HL He eq_refl). fold n in Hdi.
  assert (Hlv : levels_ok m L (Z.to_nat z) n <-> ~ bad).
  { unfold levels_ok, bad. split.
    - intros H (j & Hj & Hb). specialize (H j ltac:(lia)). destruct m; cbn in H; unfold pad_need in Hb; lia.
    - intros Hnb j Hj. specialize (Hpos j). unfold pad_need in Hnb. destruct m; cbn [admissible]; auto; try lia.
      + split; [exact Hpos|]. destruct (Nat.le_gt_cases (L - 2 + len_after L j n mod 2) (len_after L j n)) as [|Hgt]; [assumption|].
        exfalso. apply Hnb. exists j. split; [lia|exact Hgt].
      + destruct (Nat.lt_ge_cases (L - 2 + len_after L j n mod 2) (len_after L j n)) as [|Hgt]; [assumption|].
        exfalso. apply Hnb. exists j. split; [lia|exact Hgt]. }
  split.
  - intros Hb. destruct (wavedec x w (Some (mode_name m)) (Some z) axis) as [c|e].
    + exfalso. apply Hlv in Hdi. tauto.
    + destruct (Hdi Hn) as [-> _]. reflexivity.
  - intros Hb. destruct (wavedec x w (Some (mode_name m)) (Some z) axis) as [c|e]; [eauto|].
    exfalso. destruct (Hdi Hn) as [_ Hx]. apply Hx. apply Hlv. exact Hb.
Qed.

(** ** C09 *)
Theorem C09_symmetric_padding t lead s pads :
  wf t -> shp t = lead ++ s -> List.length s = List.length pads -> Forall (fun n => 1 <= n) s ->
  exists r, pad_symmetric t pads = Ok r /\ wf r /\ ttag r = ttag t /\
    shp r = lead ++ map2 (fun n p => fst p + n + snd p) s pads /\
    forall il io, valid il lead -> valid io (map2 (fun n p => fst p + n + snd p) s pads) ->
      get r (il ++ io)
      = ext_get Msymmetric s (fun is => get t (il ++ is)) (map2 (fun o p => (Z.of_nat o - Z.of_nat (fst p))%Z) io pads).
Proof.
  intros Hw Hs Hl Hpos. unfold pad_symmetric.
  assert (Hr : rank t = List.length lead + List.length s) by (unfold rank; rewrite Hs, app_length; lia).
  destruct (Nat.ltb_spec (rank t) (List.length pads)); [lia|].
  destruct (sym_loop pads s t lead [] 0 (rank t - 1)) as (r & Hr1 & Hwr & Htg & Hsr & Hg); auto.
  { rewrite app_nil_r. exact Hs. }
  { intros Hne. destruct pads; [congruence|]. cbn in Hl. lia. }
  { intros Hne. destruct pads; [congruence|]. cbn [List.length] in *. lia. }
  exists r. split; [exact Hr1|]. split; [exact Hwr|]. split; [exact Htg|]. rewrite app_nil_r in Hsr. split; [exact Hsr|].
  intros il io H1 H2. specialize (Hg il io [] H1 H2 ltac:(constructor)). rewrite !app_nil_r in Hg. rewrite Hg.
  unfold ext_get. rewrite ext_idxs_sym; auto.
  apply valid_length in H2. rewrite H2, map2_length. lia.
Qed.

(** an empty axis cannot be padded: the recursion never ends *)
Theorem C09_empty_axis_diverges (fuel padl padr : nat) : 0 < padl \/ 0 < padr ->
  pad_symmetric_1d (K := K) fuel (mkT (float32, cpu) [0] []) padl padr = Raise RecursionError.
Proof.
  intros H. assert (E : mkT (float32, cpu) [0] [] = sel0 (mkT (K := K) (float32, cpu) [0] []) []).
  { reflexivity. }
  rewrite E. rewrite pad_sym_sel by (intros; contradiction). rewrite psl_empty by exact H. reflexivity.
Qed.

(** ** C11 *)
Theorem C11_waverec_rejects_inconsistent coeffs w L h y :
  List.length (rec_lo w) = L -> List.length (rec_hi w) = L -> 2 <= L ->
  waverec coeffs w h = Ok y ->
  exists axis lo his, hint_axes h 1 = Some [axis] /\
    (* every coefficient is a tensor, on one device and with one supported dtype *)
    coeffs = map PT (lo :: his) /\ is_dtype_supported (tdtype lo) = true /\
    Forall (fun t => ttag t = ttag lo) his /\
    Forall (fun t => axis_ok (rank t) axis) (lo :: his) /\
    (* lengths along the axis: each detail has exactly the length of the current approximation, and
       the next one has the reconstructed length 2k+2-L or one less *)
    lens_fit L (ax_len axis lo) (map (ax_len axis) his).
Proof. intros. eapply waverec_inv; eassumption. Qed.

Theorem C11_accepted lo his w L axis : wf lo -> is_dtype_supported (tdtype lo) = true -> axis_ok (rank lo) axis ->
  let a := norm_axis (rank lo) axis in
  Forall (fun h : tensor K => wf h /\ ttag h = ttag lo /\ rank h = rank lo /\
            forall d, d <> a -> nth d (shp h) 0 = nth d (shp lo) 0) his ->
  List.length (rec_lo w) = L -> List.length (rec_hi w) = L -> 2 <= L ->
  lens_fit L (ax_len axis lo) (map (ax_len axis) his) ->
  waverec (map PT (lo :: his)) w (AxInt axis) = Ok (waverec_spec L (rec_lo w) (rec_hi w) a lo his).
Proof.
  intros Hw Hd Hax a Hall H1 H2 HL Hfit. apply (waverec_ok lo his w L axis (AxInt axis)); auto.
  - eapply Forall_impl; [|exact Hall]. cbv beta. intros h (A & B & C & D). repeat split; auto. fold a. unfold fsz.
    unfold rank in C. rewrite C. unfold gather. apply map_ext_in. intros d Hdd. apply in_front in Hdd. apply D. intros ->. apply (proj2 Hdd). left. reflexivity.
  - replace (map (alen (norm_axis (rank lo) axis)) his) with (map (ax_len axis) his); [exact Hfit|].
    apply map_ext_in. intros h Hh. rewrite Forall_forall in Hall. destruct (Hall h Hh) as (_ & _ & C & _). unfold ax_len, alen. rewrite C. reflexivity.
Qed.

(** ** C12 *)
(** untouched axes of a rank-r tensor, in order *)
Definition rest_axes (nax : list nat) (r : nat) : list nat := filter (fun d => negb (memn d nax)) (seq 0 r).
Lemma rest_axes_front nax r : front_of nax r = rest_axes nax r.
Proof. reflexivity. Qed.

Theorem C12_pre_post_inverse x N h axes : wf x -> is_dtype_supported (tdtype x) = true -> 0 < N ->
  hint_axes h N = Some axes -> List.length axes = N -> axes_ok (rank x) axes ->
  let nax := map (norm_axis (rank x)) axes in
  let F := gather (rest_axes nax (rank x)) 0 (shp x) in   (* sizes of the untouched axes *)
  exists d ds, preprocess_tensor x N h false = Ok (d, ds) /\
    (* one folded batch axis, then the transformed axes in the requested order *)
    shp d = prodl F :: gather nax 0 (shp x) /\
    (forall idx, valid idx (shp x) ->
       get d (ravel F (gather (rest_axes nax (rank x)) 0 idx) :: gather nax 0 idx) = get x idx) /\
    (* undone exactly *)
    postprocess_tensor d N ds h = Ok x /\
    (* also when the transformed sizes changed in between *)
    forall y back, wf y -> shp y = prodl F :: back -> List.length back = N ->
      exists z, postprocess_tensor y N ds h = Ok z /\ ttag z = ttag y /\
        shp z = upds nax back (shp x) /\
        forall idx, valid idx (shp z) -> get z idx = get y (ravel F (gather (rest_axes nax (rank x)) 0 idx) :: gather nax 0 idx).
Proof.
  intros Hw Hd HN Hh Hla Hax nax F.
  pose proof (good_axes_ok _ _ Hax) as Hg. fold nax in Hg.
  assert (Hln : List.length nax = N) by (unfold nax; rewrite map_length; exact Hla).
  assert (EF : F = fsz nax (shp x)) by reflexivity.
  rewrite (preprocess_tensor_ok x N h axes false) by assumption. fold nax.
  eexists. eexists. split; [reflexivity|]. split; [reflexivity|]. split.
  { intros idx Hv. apply get_pre_t; assumption. }
  assert (HF : List.length (fsz nax (shp x)) = rank x - N) by (rewrite fsz_length by exact Hg; rewrite Hln; reflexivity).
  assert (HrN : N <= rank x) by (rewrite <- Hla; apply axes_ok_length; exact Hax).
  split.
  { rewrite (postprocess_tensor_ok _ N h axes (rank x)); auto.
    - fold nax. rewrite post_pre by assumption. reflexivity.
    - rewrite gather_length. exact Hln.
    - apply pre_t_wf. exact Hg.
    - eexists. split; [reflexivity|]. rewrite gather_length. exact Hln. }
  intros y back Hwy Hsy Hlb. rewrite EF in Hsy.
  rewrite (postprocess_tensor_ok y N h axes (rank x)); auto.
  2:{ rewrite gather_length. exact Hln. }
  2:{ eauto. }
  fold nax. eexists. split; [reflexivity|]. split; [reflexivity|].
  assert (HFN : List.length (fsz nax (shp x)) + List.length nax = rank x) by lia.
  assert (Hsz : shp (post_t nax (fsz nax (shp x)) y) = upds nax back (shp x)).
  { rewrite (post_t_shp _ _ _ _ _ Hsy), HFN.
    destruct (unperm_split nax (rank x) (fsz nax (shp x)) back) as (U1 & U2 & U3); auto; try lia.
    apply (shp_eq_fsz nax).
    - rewrite upds_length. exact Hg.
    - rewrite U1, upds_length. reflexivity.
    - unfold fsz at 1. rewrite U1, U2. unfold fsz. rewrite upds_length. symmetry.
      apply gather_upds_notin. intros d Hdd. apply in_front in Hdd. tauto.
    - rewrite U3. symmetry. apply gather_upds; [apply Hg|lia|intros d Hdd; apply Hg; exact Hdd]. }
  split; [exact Hsz|].
  intros idx Hv. rewrite (get_post_t _ _ _ back); auto; rewrite ?HFN; auto; lia.
Qed.

(** ** C17 (1d) *)
Theorem C17_zero_level x w m L level axis :
  wf x -> is_dtype_supported (tdtype x) = true -> axis_ok (rank x) axis ->
  List.length (dec_lo w) = L -> List.length (dec_hi w) = L -> 2 <= L -> Nat.even L = true ->
  let n := nth (norm_axis (rank x) axis) (shp x) 0 in
  match level with Some z => (z <= 0)%Z | None => n < 2 * (L - 1) end ->
  wavedec x w (Some (mode_name m)) level axis = Ok (mkPC true [PT x]).
Proof.
  intros Hw Hd Hax H1 H2 HL He n Hz. rewrite (wavedec_ok x w m L 0 level axis); auto.
  - destruct level as [z|]; cbn [lev_of]; [lia|]. fold n. unfold dwt_max_level. destruct (Nat.ltb_spec L 2); [lia|].
    destruct (Nat.ltb_spec n (L - 1)); [reflexivity|]. f_equal.
    replace (n / (L - 1)) with 1; [reflexivity|]. apply (Nat.div_unique n (L - 1) 1 (n - (L - 1))); lia.
  - intros j Hj. lia.
Qed.

End P1.

(** ** Concrete instances (non-vacuity) *)
Local Notation tens := (tensor ZK).
Definition outs (r : result (pycoeffs ZK)) : list (list nat) :=
  match r with Ok c => map (fun v => match v with PT t => shp t | _ => [] end) (pc_items c) | Raise _ => [] end.

(** hypotheses of C01..C08 hold for the length-4 integer bank, a [2;7] tensor, axis 1 or 0, two levels *)
Example ex_wavedec_shapes : outs (wavedec (exT [2; 7]) exW4 (Some "reflect"%string) (Some 2%Z) (-1)) = [[2; 4]; [2; 4]; [2; 5]].
Proof. vm_compute. reflexivity. Qed.
Definition roundtrip (r : result (pycoeffs ZK)) (w : wavelet ZK) (ax : Z) : option (nat * list nat * list Z) :=
  match r with
  | Ok c => match waverec (pc_items c) w (AxInt ax) with Ok y => Some (List.length (pc_items c), shp y, dat y) | Raise _ => None end
  | Raise _ => None
  end.
Example ex_pr : match roundtrip (wavedec (exT [7; 2]) exW4 (Some (mode_name Msymmetric)) (Some 3%Z) (-2)) exW4 (-2) with
  | Some (k, s, d) => k = 4 /\ s = [8; 2] /\ firstn 14 d = dat (exT [7; 2])
  | None => False end.
Proof. vm_compute. repeat split. Qed.
Example ex_C01 : cancel2 ZK /\ pr_bank (dec_lo exW4) (dec_hi exW4) (rec_lo exW4) (rec_hi exW4) 4 /\ wf (exT [2; 7]).
Proof. split; [apply ZK_cancel2|]. split; [apply exW4_pr|apply exT_wf]. Qed.
Example ex_C07 : outs (wavedec (exT [2; 13]) exW4 (Some "periodic"%string) None 1) = [[2; 5]; [2; 5]; [2; 8]].
Proof. vm_compute. reflexivity. Qed.
Example ex_C08_bad : wavedec (exT [3]) exW4 (Some (mode_name Mreflect)) (Some 1%Z) 0 = Raise RuntimeError
  /\ len_after 4 0 3 <= pad_need 4 (len_after 4 0 3).
Proof. split; [vm_compute; reflexivity|cbn; lia]. Qed.
Example ex_C09 : pad_symmetric (exT [1; 3]) [(5, 4)] = Ok (mkT (K := ZK) f32 [1; 12] (map (fun i => nth i (dat (exT [1; 3])) 0%Z) [1;2;2;1;0;0;1;2;2;1;0;0])).
Proof. vm_compute. reflexivity. Qed.

(** Finding: the consistency check of waverec does not look at the batch dimensions.  Details of
    shape [3;2;k] are accepted for an approximation of shape [2;3;k] (and mixed up silently). *)
Definition ex_mix_lo : tens := exT [2; 3; 2].
Definition ex_mix_hi : tens := exT [3; 2; 2].
Theorem C11_batch_shape_not_checked_refuted :
  match waverec [PT ex_mix_lo; PT ex_mix_hi] exW2 (AxInt (-1)) with
  | Ok y => shp ex_mix_hi <> shp ex_mix_lo /\ shp y = [2; 3; 4]
  | Raise _ => False
  end.
Proof. vm_compute. split; [discriminate|reflexivity]. Qed.

(** Finding: with zero levels an unknown mode is not rejected *)
Theorem C10_unknown_mode_zero_level_refuted :
  wavedec (exT [4]) exW2 (Some "bogus"%string) (Some 0%Z) (-1) = Ok (mkPC true [PT (exT [4])]).
Proof. vm_compute. reflexivity. Qed.
