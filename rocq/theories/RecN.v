(** waverec2 / waverec3 compute the separable inverse transform; perfect reconstruction. *)
From Coq Require Import List Arith ZArith Lia Bool String.
From Coq Require Import ZifyNat ZifyBool.
From Verif Require Import Base Sums Tensor TensorFacts Util Perm Plumb Accept Spec Conv1 PadFacts CoreFacts Analysis AnalysisInv PRKernel Synthesis Filters Wave1 Wave1Inv Rec1 Conv2 Conv3 Spec2 WaveN.
Import ListNotations.
Ltac Zify.zify_post_hook ::= Z.div_mod_to_equations.

Section RN.
Context {K : CRing}.
Add Ring Kring : (cr_th K).
Implicit Types t u x y lo hi : tensor K.
Implicit Types rlo rhi : list K.
Implicit Types w : wavelet K.
Implicit Types levels : list (list (tensor K)).

Definition chansD (D : nat) rlo rhi : list (list (list K)) := map (fun c => bsels rlo rhi (chanD D c)) (seq 0 (2 ^ D)).
Lemma chans2_D rlo rhi : chans2 rlo rhi = chansD 2 rlo rhi. Proof. reflexivity. Qed.
Lemma chans3_D rlo rhi : chans3 rlo rhi = chansD 3 rlo rhi. Proof. reflexivity. Qed.

(** * cropping *)
Lemma rank_narrow t d a n : rank (narrow t d a n) = rank t.
Proof. unfold rank, narrow. rewrite shp_make, updn_length. reflexivity. Qed.
Lemma crop_last_narrow t i p q : wf t -> 1 <= i -> i <= rank t -> p <= nth (rank t - i) (shp t) 0 ->
  crop_last t i p q = narrow t (rank t - i) p (nth (rank t - i) (shp t) 0 - p - q).
Proof.
  intros Hw Hi Hr Hp. rewrite <- crop_narrow; auto; [|lia]. unfold crop_last, crop.
  destruct (Nat.ltb 0 p); cbv zeta; [|reflexivity]. unfold slice_from. rewrite rank_narrow. reflexivity.
Qed.

Lemma crop2_win t b n1 n2 p1 q1 p2 q2 p : wf t -> shp t = [b; n1; n2] -> p1 = p -> p2 = p -> p <= n1 -> p <= n2 ->
  crop_last (crop_last t 2 p1 q1) 1 p2 q2 = win p [n1 - p - q1; n2 - p - q2] t.
Proof.
  intros Hw Hs -> -> H1 H2. assert (Hr : rank t = 3) by (unfold rank; rewrite Hs; reflexivity).
  rewrite (crop_last_narrow t 2); auto; try (rewrite ?Hr, ?Hs; cbn; lia). rewrite Hr, Hs. cbn [Nat.sub nth].
  rewrite crop_last_narrow; try apply wf_make; rewrite ?rank_narrow, ?Hr; try (cbn [narrow shp tmake]; rewrite ?Hs; cbn; lia).
  cbn [Nat.sub]. unfold win. rewrite Hs. cbn [narrow shp tmake ttag updn nth hd]. rewrite Hs. cbn [updn nth].
  unfold narrow at 1. cbn [narrow shp tmake ttag]. rewrite Hs. cbn [updn].
  apply make_ext. intros idx Hv. rewrite get_narrow.
  - destruct idx as [|i [|j [|k [|]]]]; try (apply valid_length in Hv; cbn in Hv; lia). reflexivity.
  - rewrite Hs. cbn [updn].
    destruct idx as [|i [|j [|k [|]]]]; try (apply valid_length in Hv; cbn in Hv; lia).
    apply valid_cons_inv in Hv as [V1 Hv]. apply valid_cons_inv in Hv as [V2 Hv]. apply valid_cons_inv in Hv as [V3 _].
    cbn [nth updn]. valids.
Qed.

Lemma crop3_win t b n1 n2 n3 p1 q1 p2 q2 p3 q3 p : wf t -> shp t = [b; n1; n2; n3] -> p1 = p -> p2 = p -> p3 = p ->
  p <= n1 -> p <= n2 -> p <= n3 ->
  crop_last (crop_last (crop_last t 2 p2 q2) 1 p3 q3) 3 p1 q1 = win p [n1 - p - q1; n2 - p - q2; n3 - p - q3] t.
Proof.
  intros Hw Hs -> -> -> H1 H2 H3. assert (Hr : rank t = 4) by (unfold rank; rewrite Hs; reflexivity).
  rewrite (crop_last_narrow t 2); auto; try (rewrite ?Hr, ?Hs; cbn; lia). rewrite Hr, Hs. cbn [Nat.sub nth].
  set (t1 := narrow t 2 p (n2 - p - q2)).
  assert (Hs1 : shp t1 = [b; n1; n2 - p - q2; n3]) by (unfold t1, narrow; rewrite shp_make, Hs; reflexivity).
  assert (Hr1 : rank t1 = 4) by (unfold rank; rewrite Hs1; reflexivity).
  rewrite (crop_last_narrow t1 1); [|apply wf_make|lia|lia|rewrite Hr1, Hs1; cbn; lia]. rewrite Hr1, Hs1. cbn [Nat.sub nth].
  set (t2 := narrow t1 3 p (n3 - p - q3)).
  assert (Hs2 : shp t2 = [b; n1; n2 - p - q2; n3 - p - q3]) by (unfold t2, narrow; rewrite shp_make, Hs1; reflexivity).
  assert (Hr2 : rank t2 = 4) by (unfold rank; rewrite Hs2; reflexivity).
  rewrite (crop_last_narrow t2 3); [|apply wf_make|lia|lia|rewrite Hr2, Hs2; cbn; lia]. rewrite Hr2, Hs2. cbn [Nat.sub nth].
  unfold win. rewrite Hs. cbn [hd]. unfold narrow at 1. rewrite Hs2. cbn [updn]. change (ttag t2) with (ttag t).
  apply make_ext. intros idx Hv.
  destruct idx as [|i [|j [|k [|l [|]]]]]; try (apply valid_length in Hv; cbn in Hv; lia).
  apply valid_cons_inv in Hv as [V1 Hv]. apply valid_cons_inv in Hv as [V2 Hv]. apply valid_cons_inv in Hv as [V3 Hv].
  apply valid_cons_inv in Hv as [V4 _]. cbn [nth updn hd tl map].
  unfold t2. rewrite get_narrow by (rewrite Hs1; cbn [updn]; valids). cbn [nth updn].
  unfold t1. rewrite get_narrow by (rewrite Hs; cbn [updn]; valids). reflexivity.
Qed.

(** * one synthesis step *)
(** target sizes of a level; [next]: sizes of the next level's details *)
Definition fitsN (L : nat) (ks : list nat) (next : option (list nat)) (outs : list nat) : Prop :=
  match next with
  | None => outs = map (fun k => 2 * k + 2 - L) ks
  | Some nx => outs = nx /\ Forall2 (fun k o => o + L = 2 * k + 2 \/ o + L = 2 * k + 1) ks nx
  end.

Lemma idwtN_D D rlo rhi L nax lo ds outs :
  idwtN L (chansD D rlo rhi) nax lo ds outs
  = idwt_axes L (2 ^ D) (fun c => bsels rlo rhi (chanD D c)) nax (fun c => nth c (lo :: ds) lo) outs.
Proof.
  unfold idwtN, chansD. rewrite map_length, seq_length. apply idwt_axes_ext; auto.
  - pose proof (Nat.pow_nonzero 2 D). lia.
  - intros c Hc. rewrite (nth_indep _ [] ((fun c => bsels rlo rhi (chanD D c)) 0)) by (rewrite map_length, seq_length; exact Hc).
    rewrite (map_nth (fun c => bsels rlo rhi (chanD D c))), seq_nth by exact Hc. reflexivity.
Qed.

Lemma waverec2_step_ok rlo rhi L nax lo d1 d2 d3 filt g (next : option (list nat)) outs b :
  List.length nax = 2 -> good_axes (rank lo) nax ->
  Forall (fun d => wf d /\ shp d = shp lo) [d1; d2; d3] -> wf lo ->
  List.length rlo = L -> List.length rhi = L -> 2 <= L ->
  Forall (fun k => 1 <= k) (gather nax 0 (shp lo)) ->
  construct_nd_filt (create_tensor rlo false g) (create_tensor rhi false g) 2 = Ok filt ->
  fitsN L (gather nax 0 (shp lo)) next outs ->
  waverec2_step filt L (pre_t nax lo) (pre_t nax d1) (pre_t nax d2) (pre_t nax d3) (option_map (cons b) next)
  = Ok (pre_t nax (idwtN L (chansD 2 rlo rhi) nax lo [d1; d2; d3] outs)).
Proof.
  intros Hn Hg Hds Hw H1 H2 HL Hk Hf Hfit. rewrite Forall_forall in Hds.
  set (ys := fun c => nth c (lo :: [d1; d2; d3]) lo).
  destruct (rec_step 2 rlo rhi L nax ys filt g) as (st & ct & E1 & E2 & E3 & E4 & E5); auto; try lia.
  { intros c Hc. unfold ys. destruct c as [|[|[|[|c]]]]; cbn [nth]; auto; try (apply Hds; cbn; tauto). cbn in Hc. lia. }
  unfold waverec2_step. cbn [Nat.pow Nat.mul Nat.add seq map ys nth] in E1. rewrite E1. cbn [rbind]. rewrite E2. cbn [rbind].
  rewrite pad_value by exact HL. rewrite idwtN_D. fold ys.
  set (r := squeeze ct 1) in *. change (ys 0) with lo in *.
  destruct nax as [|a1 [|a2 [|]]]; try discriminate. cbn [gather map] in *.
  set (k1 := nth a1 (shp lo) 0) in *. set (k2 := nth a2 (shp lo) 0) in *.
  assert (Hr : rank r = 3) by (unfold rank; rewrite E3; reflexivity).
  assert (Hk1 : 1 <= k1) by (inversion Hk; auto). assert (Hk2 : 1 <= k2) by (inversion Hk as [|? ? _ Hk']; inversion Hk'; auto).
  assert (Hd1 : dim_last r 1 = (k2 - 1) * 2 + L) by (unfold dim_last; rewrite Hr, E3; reflexivity).
  assert (Hd2 : dim_last r 2 = (k1 - 1) * 2 + L) by (unfold dim_last; rewrite Hr, E3; reflexivity).
  rewrite Hd1, Hd2.
  assert (Hps : exists q2 q1,
     (match option_map (cons b) next with
      | None => Ok (L - 2, L - 2, (L - 2, L - 2))
      | Some nx => let* a := adjust_padding ((k2 - 1) * 2 + L) (shape_last nx 1) (L - 2) (L - 2) in
                   let* b0 := adjust_padding ((k1 - 1) * 2 + L) (shape_last nx 2) (L - 2) (L - 2) in Ok (a, b0)
      end = Ok (q2, L - 2, (q1, L - 2))) /\
     outs = [(k1 - 1) * 2 + L - (L - 2) - q1; (k2 - 1) * 2 + L - (L - 2) - q2]).
  { destruct next as [nx|]; cbn [option_map fitsN] in *.
    - destruct Hfit as [-> Hfit]. inversion Hfit as [|? o1 ? ? G1 Hfit' ]; subst. inversion Hfit' as [|? o2 ? ? G2 Hfit'']; subst. inversion Hfit''; subst.
      destruct (adjust_fits (List.length rlo) k1 o1 HL Hk1 G1) as (q1 & A1 & B1). destruct (adjust_fits (List.length rlo) k2 o2 HL Hk2 G2) as (q2 & A2 & B2).
      exists q2, q1. cbn [shape_last List.length Nat.sub nth]. unfold shape_last. cbn [List.length Nat.sub nth]. rewrite A2. cbn [rbind]. rewrite A1. cbn [rbind]. rewrite B1, B2. auto.
    - exists (L - 2), (L - 2). split; [reflexivity|]. rewrite Hfit. repeat (apply (f_equal2 cons); [lia|]). reflexivity. }
  destruct Hps as (q2 & q1 & Hps & Ho). rewrite Hps. cbn [rbind].
  rewrite (crop2_win r (prodl (fsz [a1; a2] (shp lo))) ((k1 - 1) * 2 + L) ((k2 - 1) * 2 + L) _ _ _ _ (L - 2)); auto; try lia.
  rewrite <- Ho. rewrite E5; [reflexivity|]. rewrite Ho. constructor; [lia|]. constructor; [lia|constructor].
Qed.

Lemma waverec3_step_ok rlo rhi L nax lo ds filt g (next : option (list nat)) outs b :
  List.length nax = 3 -> good_axes (rank lo) nax -> List.length ds = 7 ->
  Forall (fun d => wf d /\ shp d = shp lo) ds -> wf lo ->
  List.length rlo = L -> List.length rhi = L -> 2 <= L ->
  Forall (fun k => 1 <= k) (gather nax 0 (shp lo)) ->
  construct_nd_filt (create_tensor rlo false g) (create_tensor rhi false g) 3 = Ok filt ->
  fitsN L (gather nax 0 (shp lo)) next outs ->
  waverec3_step filt L (pre_t nax lo) (combine keys3 (map (pre_t nax) ds)) (option_map (cons b) next)
  = Ok (pre_t nax (idwtN L (chansD 3 rlo rhi) nax lo ds outs)).
Proof.
  intros Hn Hg Hl7 Hds Hw H1 H2 HL Hk Hf Hfit. rewrite Forall_forall in Hds.
  set (ys := fun c => nth c (lo :: ds) lo).
  destruct (rec_step 3 rlo rhi L nax ys filt g) as (st & ct & E1 & E2 & E3 & E4 & E5); auto; try lia.
  { intros c Hc. unfold ys at 1 2. destruct c as [|c]; cbn [nth]; [auto|]. apply Hds. apply nth_In. cbn in Hc. lia. }
  unfold waverec3_step. rewrite idwtN_D. fold ys.
  destruct ds as [|d1 [|d2 [|d3 [|d4 [|d5 [|d6 [|d7 [|]]]]]]]]; try discriminate.
  assert (Hcs : rmap (dict_get (combine keys3 (map (pre_t nax) [d1; d2; d3; d4; d5; d6; d7]))) ["aad"; "ada"; "add"; "daa"; "dad"; "dda"; "ddd"]%string
    = Ok (map (pre_t nax) [d1; d2; d3; d4; d5; d6; d7])) by reflexivity.
  rewrite Hcs. cbn [rbind].
  cbn [Nat.pow Nat.mul Nat.add seq map ys nth] in E1. cbn [map]. rewrite E1. cbn [rbind]. rewrite E2. cbn [rbind].
  rewrite pad_value by exact HL.
  set (r := squeeze ct 1) in *. change (ys 0) with lo in *.
  destruct nax as [|a1 [|a2 [|a3 [|]]]]; try discriminate. cbn [gather map] in *.
  set (k1 := nth a1 (shp lo) 0) in *. set (k2 := nth a2 (shp lo) 0) in *. set (k3 := nth a3 (shp lo) 0) in *.
  assert (Hr : rank r = 4) by (unfold rank; rewrite E3; reflexivity).
  inversion Hk as [|? ? Hk1 Hk']; subst. inversion Hk' as [|? ? Hk2 Hk'']; subst. inversion Hk'' as [|? ? Hk3 _]; subst. set (L := List.length rlo) in *.
  assert (Hd1 : dim_last r 1 = (k3 - 1) * 2 + L) by (unfold dim_last; rewrite Hr, E3; reflexivity).
  assert (Hd2 : dim_last r 2 = (k2 - 1) * 2 + L) by (unfold dim_last; rewrite Hr, E3; reflexivity).
  assert (Hd3 : dim_last r 3 = (k1 - 1) * 2 + L) by (unfold dim_last; rewrite Hr, E3; reflexivity).
  rewrite Hd1, Hd2, Hd3.
  assert (Hps : exists q3 q2 q1,
     (match option_map (cons b) next with
      | None => Ok (L - 2, L - 2, (L - 2, L - 2), (L - 2, L - 2))
      | Some nx => let* a := adjust_padding ((k3 - 1) * 2 + L) (shape_last nx 1) (L - 2) (L - 2) in
                   let* b0 := adjust_padding ((k2 - 1) * 2 + L) (shape_last nx 2) (L - 2) (L - 2) in
                   let* c0 := adjust_padding ((k1 - 1) * 2 + L) (shape_last nx 3) (L - 2) (L - 2) in Ok (a, b0, c0)
      end = Ok (q3, L - 2, (q2, L - 2), (q1, L - 2))) /\
     outs = [(k1 - 1) * 2 + L - (L - 2) - q1; (k2 - 1) * 2 + L - (L - 2) - q2; (k3 - 1) * 2 + L - (L - 2) - q3]).
  { destruct next as [nx|]; cbn [option_map fitsN] in *.
    - destruct Hfit as [-> Hfit]. inversion Hfit as [|? o1 ? ? G1 Hfit1 ]; subst. inversion Hfit1 as [|? o2 ? ? G2 Hfit2]; subst.
      inversion Hfit2 as [|? o3 ? ? G3 Hfit3]; subst. inversion Hfit3; subst.
      destruct (adjust_fits L k1 o1 HL Hk1 G1) as (q1 & A1 & B1). destruct (adjust_fits L k2 o2 HL Hk2 G2) as (q2 & A2 & B2).
      destruct (adjust_fits L k3 o3 HL Hk3 G3) as (q3 & A3 & B3).
      exists q3, q2, q1. unfold shape_last. cbn [List.length Nat.sub nth]. rewrite A3. cbn [rbind]. rewrite A2. cbn [rbind]. rewrite A1. cbn [rbind]. rewrite B1, B2, B3. auto.
    - exists (L - 2), (L - 2), (L - 2). split; [reflexivity|]. rewrite Hfit. repeat (apply (f_equal2 cons); [lia|]). reflexivity. }
  destruct Hps as (q3 & q2 & q1 & Hps & Ho). rewrite Hps. cbn [rbind].
  rewrite (crop3_win r (prodl (fsz [a1; a2; a3] (shp lo))) ((k1 - 1) * 2 + L) ((k2 - 1) * 2 + L) ((k3 - 1) * 2 + L) _ _ _ _ _ _ (L - 2)); auto; try lia.
  rewrite <- Ho. rewrite E5; [reflexivity|]. rewrite Ho. constructor; [lia|]. constructor; [lia|]. constructor; [lia|constructor].
Qed.

Lemma idwtN_facts L (fs : list (list (list K))) nax lo ds outs : good_axes (rank lo) nax -> List.length outs = List.length nax ->
  let z := idwtN L fs nax lo ds outs in
  wf z /\ rank z = rank lo /\ ttag z = ttag lo /\ fsz nax (shp z) = fsz nax (shp lo) /\ gather nax 0 (shp z) = outs.
Proof.
  intros Hg Ho z. unfold z, idwtN, idwt_axes. cbn [nth]. split; [apply wf_make|]. unfold rank. rewrite shp_make, upds_length.
  split; [reflexivity|]. split; [reflexivity|]. split.
  - unfold fsz. rewrite upds_length. apply gather_upds_notin. intros d Hd. apply in_front in Hd. tauto.
  - apply gather_upds; [apply Hg|exact Ho|]. intros d Hd. apply Hg in Hd. exact Hd.
Qed.

(** * the loop, for any number of axes *)
Definition head_shape levels : option (list nat) := match levels with (h :: _) :: _ => Some (shp h) | _ => None end.
Fixpoint gloop (step : tensor K -> list (tensor K) -> option (list nat) -> result (tensor K)) (cur : tensor K) levels : result (tensor K) :=
  match levels with
  | [] => Ok cur
  | ds :: rest => let* r := step cur ds (head_shape rest) in gloop step r rest
  end.

(** a level's tensors: [C] of them, all of the same shape *)
Definition level_ok (C : nat) (nax : list nat) (r : nat) (F : list nat) (ds : list (tensor K)) : Prop :=
  List.length ds = C /\ Forall (fun d => wf d /\ rank d = r /\ fsz nax (shp d) = F) ds /\
  forall d d', In d ds -> In d' ds -> shp d = shp d'.
Definition lsizes (nax : list nat) (ds : list (tensor K)) : list nat := match ds with h :: _ => gather nax 0 (shp h) | [] => [] end.

Lemma gloop_ok (step : tensor K -> list (tensor K) -> option (list nat) -> result (tensor K)) (C : nat) L (fs : list (list (list K))) nax : 1 <= C ->
  (forall lo ds next outs b, wf lo -> good_axes (rank lo) nax -> List.length ds = C -> Forall (fun d => wf d /\ shp d = shp lo) ds ->
     Forall (fun k => 1 <= k) (gather nax 0 (shp lo)) -> fitsN L (gather nax 0 (shp lo)) next outs ->
     step (pre_t nax lo) (map (pre_t nax) ds) (option_map (cons b) next) = Ok (pre_t nax (idwtN L fs nax lo ds outs))) ->
  forall levels lo, wf lo -> good_axes (rank lo) nax ->
  Forall (level_ok C nax (rank lo) (fsz nax (shp lo))) levels ->
  sizes_fit L (gather nax 0 (shp lo)) (map (lsizes nax) levels) ->
  let z := recN_spec L fs nax lo levels in
  gloop step (pre_t nax lo) (map (map (pre_t nax)) levels) = Ok (pre_t nax z) /\
  wf z /\ rank z = rank lo /\ fsz nax (shp z) = fsz nax (shp lo).
Proof.
  intros HC Hstep. induction levels as [|ds levels IH]; intros lo Hw Hg Hall Hfit; [cbn; auto|].
  cbn [map gloop recN_spec sizes_fit] in *. inversion Hall as [|? ? (Hl & Hds & Heq) Hall']; subst.
  destruct Hfit as (Hk & Hk1 & Hrest).
  assert (Hshp : Forall (fun d => wf d /\ shp d = shp lo) ds).
  { rewrite Forall_forall in Hds |- *. intros d Hd. destruct (Hds d Hd) as (D1 & D2 & D3). split; [exact D1|].
    apply (shp_eq_fsz nax); auto. destruct ds as [|h ds]; [destruct Hd|]. cbn [lsizes] in Hk.
    rewrite (Heq d h); [exact Hk|exact Hd|left; reflexivity]. }
  set (outs := recN_outs L nax lo levels).
  assert (Hnx : exists b next, head_shape (map (map (pre_t nax)) levels) = option_map (cons b) next /\
     fitsN L (gather nax 0 (shp lo)) next outs).
  { unfold outs, recN_outs, head_shape. destruct levels as [|[|h hs] rest]; cbn [map].
    - exists 0, None. cbn. auto.
    - exfalso. inversion Hall' as [|? ? (Hz & _) _]; subst. cbn in Hz. lia.
    - exists (prodl (fsz nax (shp h))), (Some (gather nax 0 (shp h))). cbn [option_map fitsN pre_t shp]. cbn [map lsizes] in Hrest. tauto. }
  destruct Hnx as (b & next & Hnx & Hfit'). rewrite Hnx, (Hstep lo ds next outs b); auto. cbn [rbind].
  assert (Hlo : List.length outs = List.length nax).
  { destruct next as [nx|]; cbn in Hfit'; [destruct Hfit' as [-> Hf]; apply F2_len in Hf|subst outs; rewrite Hfit'; rewrite map_length];
    rewrite gather_length in *; auto. }
  destruct (idwtN_facts L fs nax lo ds outs Hg Hlo) as (Z1 & Z2 & Z3 & Z4 & Z5).
  set (lo' := idwtN L fs nax lo ds outs) in *.
  destruct (IH lo') as (I1 & I2 & I3 & I4); auto.
  - rewrite Z2. exact Hg.
  - rewrite Z2, Z4. exact Hall'.
  - rewrite Z5. destruct levels as [|e rest]; [exact I|]. cbn [map] in Hrest |- *.
    inversion Hall' as [|? ? (Hz & _) _]; subst. destruct e as [|h e]; [cbn in Hz; lia|]. apply Hrest.
  - rewrite I3, I4, Z2, Z4. auto.
Qed.

(** * the two code loops are instances *)
Definition step2 (filt : tensor K) (L : nat) (cur : tensor K) (ds : list (tensor K)) (next : option (list nat)) : result (tensor K) :=
  match ds with
  | [lh; hl; hh] => if forallb (fun c => list_eqb Nat.eqb (shp c) (shp cur)) [lh; hl; hh] then waverec2_step filt L cur lh hl hh next else Raise ValueError
  | _ => Raise ValueError
  end.
Definition step3 (filt : tensor K) (L : nat) (cur : tensor K) (ds : list (tensor K)) (next : option (list nat)) : result (tensor K) :=
  if forallb (fun c => list_eqb Nat.eqb (shp c) (shp cur)) ds then waverec3_step filt L cur (combine keys3 ds) next else Raise ValueError.

Lemma loop2_gloop filt L levels : Forall (fun ds => List.length ds = 3) levels -> forall cur,
  waverec2_loop filt L cur (levels2 levels) = gloop (step2 filt L) cur levels.
Proof.
  induction levels as [|ds levels IH]; intros Hl cur; [reflexivity|]. inversion Hl as [|? ? H3 Hl']; subst.
  cbn [levels2 map waverec2_loop gloop]. fold (levels2 levels). destruct ds as [|a [|b [|c [|]]]]; try discriminate. unfold step2.
  destruct (forallb _ _); [|reflexivity].
  assert (E : match levels2 levels with [] => Ok None | h :: _ => let* s := next_shape2 h in Ok (Some s) end = Ok (head_shape levels)).
  { destruct levels as [|[|h e] rest]; cbn; try reflexivity. inversion Hl' as [|? ? Hz _]; discriminate. }
  rewrite E. cbn [rbind]. destruct (waverec2_step _ _ _ _ _ _ _); [|reflexivity]. cbn [rbind]. apply IH. exact Hl'.
Qed.

Lemma loop3_gloop filt L levels : Forall (fun ds => List.length ds = 7) levels -> forall cur,
  waverec3_loop filt L cur (levels3 levels) = gloop (step3 filt L) cur levels.
Proof.
  induction levels as [|ds levels IH]; intros Hl cur; [reflexivity|]. inversion Hl as [|? ? H3 Hl']; subst.
  cbn [levels3 map waverec3_loop gloop]. fold (levels3 levels).
  assert (Hc : List.length (combine keys3 ds) = 7) by (rewrite combine_length, H3; reflexivity). rewrite Hc. cbn [Nat.eqb].
  assert (Hfb : forallb (fun kv => list_eqb Nat.eqb (shp (snd kv)) (shp cur)) (combine keys3 ds) = forallb (fun c => list_eqb Nat.eqb (shp c) (shp cur)) ds).
  { destruct ds as [|d1 [|d2 [|d3 [|d4 [|d5 [|d6 [|d7 [|]]]]]]]]; try discriminate. reflexivity. }
  rewrite Hfb. clear Hfb. unfold step3 at 1. destruct (forallb (fun c => list_eqb Nat.eqb (shp c) (shp cur)) ds); [|reflexivity].
  assert (E : match levels3 levels with [] => Ok None | h :: _ => let* s := next_shape3 h in Ok (Some s) end = Ok (head_shape levels)).
  { destruct levels as [|[|h e] rest]; cbn; try reflexivity. inversion Hl' as [|? ? Hz _]; discriminate. }
  rewrite E. cbn [rbind]. destruct (waverec3_step _ _ _ _ _); [|reflexivity]. cbn [rbind]. apply IH. exact Hl'.
Qed.

Lemma list_eqb_refl (l : list nat) : list_eqb Nat.eqb l l = true.
Proof. induction l as [|a l IH]; cbn; [reflexivity|]. rewrite Nat.eqb_refl. exact IH. Qed.

Lemma pre_shapes_same nax lo (ds : list (tensor K)) : Forall (fun d => wf d /\ shp d = shp lo) ds ->
  forallb (fun c => list_eqb Nat.eqb (shp c) (shp (pre_t nax lo))) (map (pre_t nax) ds) = true.
Proof.
  intros H. apply forallb_forall. intros c Hc. apply in_map_iff in Hc as (d & <- & Hd). rewrite Forall_forall in H.
  destruct (H d Hd) as [_ Hs]. cbn [pre_t shp]. rewrite Hs. apply list_eqb_refl.
Qed.

Lemma step2_ok rlo rhi L nax filt g : List.length nax = 2 -> List.length rlo = L -> List.length rhi = L -> 2 <= L ->
  construct_nd_filt (create_tensor rlo false g) (create_tensor rhi false g) 2 = Ok filt ->
  forall lo ds next outs b, wf lo -> good_axes (rank lo) nax -> List.length ds = 3 -> Forall (fun d => wf d /\ shp d = shp lo) ds ->
     Forall (fun k => 1 <= k) (gather nax 0 (shp lo)) -> fitsN L (gather nax 0 (shp lo)) next outs ->
     step2 filt L (pre_t nax lo) (map (pre_t nax) ds) (option_map (cons b) next) = Ok (pre_t nax (idwtN L (chans2 rlo rhi) nax lo ds outs)).
Proof.
  intros Hn H1 H2 HL Hf lo ds next outs b Hw Hg Hl Hds Hk Hfit.
  destruct ds as [|d1 [|d2 [|d3 [|]]]]; try discriminate. unfold step2. cbn [map].
  change [pre_t nax d1; pre_t nax d2; pre_t nax d3] with (map (pre_t nax) [d1; d2; d3]).
  rewrite pre_shapes_same by exact Hds. rewrite chans2_D. apply (waverec2_step_ok _ _ _ _ _ _ _ _ _ g); assumption.
Qed.
Lemma step3_ok rlo rhi L nax filt g : List.length nax = 3 -> List.length rlo = L -> List.length rhi = L -> 2 <= L ->
  construct_nd_filt (create_tensor rlo false g) (create_tensor rhi false g) 3 = Ok filt ->
  forall lo ds next outs b, wf lo -> good_axes (rank lo) nax -> List.length ds = 7 -> Forall (fun d => wf d /\ shp d = shp lo) ds ->
     Forall (fun k => 1 <= k) (gather nax 0 (shp lo)) -> fitsN L (gather nax 0 (shp lo)) next outs ->
     step3 filt L (pre_t nax lo) (map (pre_t nax) ds) (option_map (cons b) next) = Ok (pre_t nax (idwtN L (chans3 rlo rhi) nax lo ds outs)).
Proof.
  intros Hn H1 H2 HL Hf lo ds next outs b Hw Hg Hl Hds Hk Hfit. unfold step3.
  rewrite pre_shapes_same by exact Hds. rewrite chans3_D. apply (waverec3_step_ok _ _ _ _ _ _ _ g); assumption.
Qed.

(** * containers *)
Lemma check_same_reg (c : pycoeffs K) g : pc_regular c -> (forall t, In t (pc_tensors c) -> ttag t = g) ->
  check_same_device_dtype c = Ok g.
Proof.
  intros Hreg Hin. destruct (first_in c Hreg) as (t & Ht & Hit & _). unfold check_same_device_dtype. rewrite Hit.
  cbn [check_if_tensor rbind]. pose proof (Hin t Ht) as Hg.
  rewrite (tree_map_ok _ _ (fun u => u)); [|exact Hreg|].
  - cbn [rbind]. rewrite (tree_map_ok _ _ (fun u => u)); [cbn [rbind]; f_equal; exact Hg|exact Hreg|].
    intros u Hu. unfold check_same_dtype, tdtype. rewrite (Hin u Hu), Hg. destruct (fst g); reflexivity.
  - intros u Hu. unfold check_same_device, tdevice. rewrite (Hin u Hu), Hg.
    replace (device_eqb (snd g) (snd g)) with true; [reflexivity|].
    symmetry. destruct (snd g); cbn; auto. apply Nat.eqb_refl.
Qed.

Lemma map_snd_combine {A B} (ks : list A) (l : list B) : List.length ks = List.length l -> map snd (combine ks l) = l.
Proof. revert l. induction ks as [|k ks IH]; intros [|b l] H; try discriminate; [reflexivity|]. cbn. rewrite IH; auto. Qed.
Lemma tensors_l2 lo levels : forall t, In t (pc_tensors (mkPC false (PT lo :: levels2 levels))) <-> t = lo \/ exists ds, In ds levels /\ In t ds.
Proof.
  intros t. unfold pc_tensors. cbn [pc_items flat_map pv_tensors app In]. rewrite in_flat_map. split.
  - intros [->|(v & Hv & Ht)]; [auto|]. apply in_map_iff in Hv as (ds & <- & Hd). right. eauto.
  - intros [->|(ds & Hd & Ht)]; [auto|]. right. exists (PTup ds). split; [apply in_map; exact Hd|exact Ht].
Qed.
Lemma tensors_l3 lo levels : Forall (fun ds => List.length ds = 7) levels ->
  forall t, In t (pc_tensors (mkPC false (PT lo :: levels3 levels))) <-> t = lo \/ exists ds, In ds levels /\ In t ds.
Proof.
  intros H7 t. rewrite Forall_forall in H7. unfold pc_tensors. cbn [pc_items flat_map pv_tensors app In]. rewrite in_flat_map. split.
  - intros [->|(v & Hv & Ht)]; [auto|]. apply in_map_iff in Hv as (ds & <- & Hd). right. exists ds. split; [exact Hd|]. cbn [pv_tensors] in Ht.
    rewrite map_snd_combine in Ht; [exact Ht|]. rewrite (H7 ds Hd). reflexivity.
  - intros [->|(ds & Hd & Ht)]; [auto|]. right. exists (PDict (combine keys3 ds)). split; [apply (in_map (fun ds => PDict (combine keys3 ds))); exact Hd|].
    cbn [pv_tensors]. rewrite map_snd_combine; [exact Ht|]. rewrite (H7 ds Hd). reflexivity.
Qed.
Lemma l2_regular lo levels : Forall (fun ds => List.length ds = 3) levels -> pc_regular (mkPC false (PT lo :: levels2 levels)).
Proof.
  intros H. unfold pc_regular. cbn [pc_items pc_is_list]. split; [apply Forall_map; exact H|]. destruct levels; cbn; auto.
Qed.
Lemma l3_regular lo levels : pc_regular (mkPC false (PT lo :: levels3 levels)).
Proof.
  unfold pc_regular. cbn [pc_items pc_is_list]. split; [apply Forall_map, Forall_forall; intros; exact I|]. destruct levels; cbn; auto.
Qed.
Lemma l2_map (f : tensor K -> tensor K) lo levels : pc_map f (mkPC false (PT lo :: levels2 levels)) = mkPC false (PT (f lo) :: levels2 (map (map f) levels)).
Proof. unfold pc_map, levels2. cbn. rewrite !map_map. reflexivity. Qed.
Lemma combine_map_r {A B C} (f : B -> C) (ks : list A) l : map (fun kv => (fst kv, f (snd kv))) (combine ks l) = combine ks (map f l).
Proof. revert l. induction ks as [|k ks IH]; intros [|b l]; try reflexivity. cbn. rewrite IH. reflexivity. Qed.
Lemma l3_map (f : tensor K -> tensor K) lo levels : pc_map f (mkPC false (PT lo :: levels3 levels)) = mkPC false (PT (f lo) :: levels3 (map (map f) levels)).
Proof.
  unfold pc_map, levels3. cbn [pc_is_list pc_items map pv_map]. rewrite !map_map. f_equal. apply (f_equal (cons _)). apply map_ext. intros ds.
  cbn [pv_map]. rewrite combine_map_r. reflexivity.
Qed.

Definition coeffs_fit (C : nat) (nax : list nat) (L : nat) lo levels : Prop :=
  Forall (fun ds => level_ok C nax (rank lo) (fsz nax (shp lo)) ds /\ Forall (fun d => ttag d = ttag lo) ds) levels /\
  sizes_fit L (gather nax 0 (shp lo)) (map (lsizes nax) levels).

Theorem waverec2_ok lo levels w L h axes : wf lo -> is_dtype_supported (tdtype lo) = true ->
  hint_axes h 2 = Some axes -> List.length axes = 2 -> axes_ok (rank lo) axes ->
  List.length (rec_lo w) = L -> List.length (rec_hi w) = L -> 2 <= L ->
  let nax := map (norm_axis (rank lo)) axes in
  coeffs_fit 3 nax L lo levels ->
  waverec2 (mkPC false (PT lo :: levels2 levels)) w h = Ok (recN_spec L (chans2 (rec_lo w) (rec_hi w)) nax lo levels).
Proof.
  intros Hw Hd Hh Hla Hax H1 H2 HL nax [Hlev Hfit].
  pose proof (good_axes_ok _ _ Hax) as Hg. fold nax in Hg.
  assert (Hn : List.length nax = 2) by (unfold nax; rewrite map_length; exact Hla).
  assert (H3 : Forall (fun ds => List.length ds = 3) levels) by (eapply Forall_impl; [|exact Hlev]; cbv beta; intros ds [[? _] _]; assumption).
  assert (Hin : forall t, In t (pc_tensors (mkPC false (PT lo :: levels2 levels))) -> wf t /\ rank t = rank lo /\ ttag t = ttag lo).
  { intros t Ht. apply tensors_l2 in Ht. destruct Ht as [->|(ds & Hds & Ht)]; [auto|]. rewrite Forall_forall in Hlev.
    destruct (Hlev ds Hds) as [(_ & A & _) B]. rewrite Forall_forall in A, B. destruct (A t Ht) as (A1 & A2 & _). auto. }
  unfold waverec2. rewrite (preprocess_coeffs_ok _ 2 h axes (rank lo) false); auto using l2_regular; try lia.
  2:{ intros t Ht. apply Hin in Ht. tauto. }
  fold nax. cbn [rbind]. change (fun t : tensor K => pre_t nax t) with (pre_t (K := K) nax). rewrite l2_map.
  rewrite (check_same_reg _ (ttag lo)).
  2:{ apply l2_regular. apply Forall_map. eapply Forall_impl; [|exact H3]. cbv beta. intros ds. rewrite map_length. auto. }
  2:{ intros t Ht. rewrite <- l2_map, pc_map_tensors in Ht. apply in_map_iff in Ht as (u & <- & Hu). apply Hin in Hu. cbn. tauto. }
  cbn [rbind get_filter_tensors].
  destruct (filt_nd 2 (rec_lo w) (rec_hi w) false (ttag lo) L ltac:(lia) H1 H2) as (filt & Hf & _).
  assert (Hf' := Hf). cbn [construct_nd_filt] in Hf'. rewrite Hf'. cbn [rbind pc_items].
  replace (dim_last (create_tensor (rec_lo w) false (ttag lo)) 1) with L by (symmetry; exact H1).
  rewrite loop2_gloop by (apply Forall_map; eapply Forall_impl; [|exact H3]; cbv beta; intros ds; rewrite map_length; auto).
  destruct (gloop_ok (step2 filt L) 3 L (chans2 (rec_lo w) (rec_hi w)) nax ltac:(lia)
    (step2_ok _ _ L nax filt (ttag lo) Hn H1 H2 HL Hf) levels lo Hw Hg) as (G1 & G2 & G3 & G4); auto.
  { eapply Forall_impl; [|exact Hlev]. cbv beta. tauto. }
  rewrite G1. cbn [rbind]. change (first_shape (mkPC false (PT lo :: levels2 levels))) with (shp lo).
  rewrite (postprocess_tensor_ok _ 2 h axes (rank lo)); auto; try lia.
  - fold nax. rewrite <- G4. rewrite post_pre; auto. rewrite G3. exact Hg.
  - rewrite fsz_length by exact Hg. rewrite Hn. reflexivity.
  - rewrite gather_length. exact Hn.
  - apply pre_t_wf. rewrite G3. exact Hg.
  - exists (gather nax 0 (shp (recN_spec L (chans2 (rec_lo w) (rec_hi w)) nax lo levels))). cbn [pre_t shp]. rewrite G4. split; [reflexivity|].
    rewrite gather_length. exact Hn.
Qed.

Theorem waverec3_ok lo levels w L h axes : wf lo -> is_dtype_supported (tdtype lo) = true ->
  hint_axes h 3 = Some axes -> List.length axes = 3 -> axes_ok (rank lo) axes ->
  List.length (rec_lo w) = L -> List.length (rec_hi w) = L -> 2 <= L ->
  let nax := map (norm_axis (rank lo)) axes in
  coeffs_fit 7 nax L lo levels ->
  waverec3 (mkPC false (PT lo :: levels3 levels)) w h = Ok (recN_spec L (chans3 (rec_lo w) (rec_hi w)) nax lo levels).
Proof.
  intros Hw Hd Hh Hla Hax H1 H2 HL nax [Hlev Hfit].
  pose proof (good_axes_ok _ _ Hax) as Hg. fold nax in Hg.
  assert (Hn : List.length nax = 3) by (unfold nax; rewrite map_length; exact Hla).
  assert (H3 : Forall (fun ds => List.length ds = 7) levels) by (eapply Forall_impl; [|exact Hlev]; cbv beta; intros ds [[? _] _]; assumption).
  assert (Hin : forall t, In t (pc_tensors (mkPC false (PT lo :: levels3 levels))) -> wf t /\ rank t = rank lo /\ ttag t = ttag lo).
  { intros t Ht. apply tensors_l3 in Ht; [|exact H3]. destruct Ht as [->|(ds & Hds & Ht)]; [auto|]. rewrite Forall_forall in Hlev.
    destruct (Hlev ds Hds) as [(_ & A & _) B]. rewrite Forall_forall in A, B. destruct (A t Ht) as (A1 & A2 & _). auto. }
  unfold waverec3. rewrite (preprocess_coeffs_ok _ 3 h axes (rank lo) false); auto using l3_regular; try lia.
  2:{ intros t Ht. apply Hin in Ht. tauto. }
  fold nax. cbn [rbind]. change (fun t : tensor K => pre_t nax t) with (pre_t (K := K) nax). rewrite l3_map.
  rewrite (check_same_reg _ (ttag lo)).
  2:{ apply l3_regular. }
  2:{ intros t Ht. rewrite <- l3_map, pc_map_tensors in Ht. apply in_map_iff in Ht as (u & <- & Hu). apply Hin in Hu. cbn. tauto. }
  cbn [rbind get_filter_tensors].
  destruct (filt_nd 3 (rec_lo w) (rec_hi w) false (ttag lo) L ltac:(lia) H1 H2) as (filt & Hf & _).
  assert (Hf' := Hf). cbn [construct_nd_filt] in Hf'. rewrite Hf'. cbn [rbind pc_items].
  replace (dim_last (create_tensor (rec_lo w) false (ttag lo)) 1) with L by (symmetry; exact H1).
  rewrite loop3_gloop by (apply Forall_map; eapply Forall_impl; [|exact H3]; cbv beta; intros ds; rewrite map_length; auto).
  destruct (gloop_ok (step3 filt L) 7 L (chans3 (rec_lo w) (rec_hi w)) nax ltac:(lia)
    (step3_ok _ _ L nax filt (ttag lo) Hn H1 H2 HL Hf) levels lo Hw Hg) as (G1 & G2 & G3 & G4); auto.
  { eapply Forall_impl; [|exact Hlev]. cbv beta. tauto. }
  rewrite G1. cbn [rbind]. change (first_shape (mkPC false (PT lo :: levels3 levels))) with (shp lo).
  rewrite (postprocess_tensor_ok _ 3 h axes (rank lo)); auto; try lia.
  - fold nax. rewrite <- G4. rewrite post_pre; auto. rewrite G3. exact Hg.
  - rewrite fsz_length by exact Hg. rewrite Hn. reflexivity.
  - rewrite gather_length. exact Hn.
  - apply pre_t_wf. rewrite G3. exact Hg.
  - exists (gather nax 0 (shp (recN_spec L (chans3 (rec_lo w) (rec_hi w)) nax lo levels))). cbn [pre_t shp]. rewrite G4. split; [reflexivity|].
    rewrite gather_length. exact Hn.
Qed.

(** * perfect reconstruction *)
Definition dlevel (D : nat) (dlo dhi : list K) m nax j x : list (tensor K) :=
  map (fun fs => detail dlo fs m nax j x) (tl (chansD D dlo dhi)).
Definition dlevels (D : nat) (dlo dhi : list K) m nax J x : list (list (tensor K)) :=
  map (fun j => dlevel D dlo dhi m nax j x) (rev (seq 1 J)).
Lemma spec2_levels dlo dhi m nax J x : wavedec2_spec dlo dhi m nax J x = mkPC false (PT (approx dlo m nax J x) :: levels2 (dlevels 2 dlo dhi m nax J x)).
Proof. unfold wavedec2_spec, levels2, dlevels. rewrite map_map. reflexivity. Qed.
Lemma spec3_levels dlo dhi m nax J x : wavedec3_spec dlo dhi m nax J x = mkPC false (PT (approx dlo m nax J x) :: levels3 (dlevels 3 dlo dhi m nax J x)).
Proof. unfold wavedec3_spec, levels3, dlevels. rewrite map_map. reflexivity. Qed.
Lemma dlevels_S D dlo dhi m nax J x : dlevels D dlo dhi m nax (S J) x = dlevel D dlo dhi m nax (S J) x :: dlevels D dlo dhi m nax J x.
Proof. unfold dlevels. rewrite seq_S, rev_app_distr. reflexivity. Qed.

Lemma chansD_ok D dlo dhi L : 1 <= D <= 3 -> List.length dlo = L -> List.length dhi = L ->
  Forall (fun fs => List.length fs = D /\ Forall (fun f => List.length f = L) fs) (chansD D dlo dhi).
Proof.
  intros HD H1 H2. unfold chansD. apply Forall_map, Forall_forall. intros c _. split; [|apply bsels_len; assumption].
  unfold bsels. rewrite map_length. apply chanD_length. exact HD.
Qed.
Lemma chansD_cons D dlo dhi : 1 <= D <= 3 -> exists f r, chansD D dlo dhi = repeat dlo D :: f :: r.
Proof. intros HD. assert (D = 1 \/ D = 2 \/ D = 3) as [->|[->| ->]] by lia; cbn; eauto. Qed.

Lemma dlevel_in D dlo dhi m L nax j x d : 1 <= D <= 3 -> List.length nax = D -> wf x -> good_axes (rank x) nax ->
  List.length dlo = L -> List.length dhi = L -> 1 <= j -> In d (dlevel D dlo dhi m nax j x) ->
  spec_ok nax x d /\ gather nax 0 (shp d) = map (len_after L j) (gather nax 0 (shp x)).
Proof.
  intros HD Hn Hw Hg H1 H2 Hj Hd. unfold dlevel in Hd. apply in_map_iff in Hd as (fs & <- & Hfs).
  pose proof (chansD_ok D dlo dhi L HD H1 H2) as Hc. rewrite Forall_forall in Hc.
  assert (Hin : In fs (chansD D dlo dhi)) by (destruct (chansD D dlo dhi); [destruct Hfs|right; exact Hfs]).
  destruct (Hc fs Hin) as [F1 F2]. split; [apply (detail_ok _ _ m L); auto; lia|].
  unfold detail. rewrite (dwt_axes_sizes fs m L); auto; [|rewrite approx_rank; exact Hg|lia].
  rewrite (approx_sizes dlo m L nax (j - 1) x Hg H1), map_map. apply map_ext. intros n. rewrite <- len_after_S. f_equal. lia.
Qed.

Lemma dlevel_level_ok D dlo dhi m L nax j x : 1 <= D <= 3 -> List.length nax = D -> wf x -> good_axes (rank x) nax ->
  List.length dlo = L -> List.length dhi = L -> 1 <= j ->
  level_ok (2 ^ D - 1) nax (rank x) (fsz nax (shp x)) (dlevel D dlo dhi m nax j x).
Proof.
  intros HD Hn Hw Hg H1 H2 Hj. split; [|split].
  - unfold dlevel, chansD. rewrite map_length. assert (D = 1 \/ D = 2 \/ D = 3) as [->|[->| ->]] by lia; reflexivity.
  - apply Forall_forall. intros d Hd. destruct (dlevel_in D dlo dhi m L nax j x d) as ((S1 & S2 & S3 & S4) & S5); auto.
  - intros d d' Hd Hd'. destruct (dlevel_in D dlo dhi m L nax j x d) as ((S1 & S2 & S3 & S4) & S5); auto.
    destruct (dlevel_in D dlo dhi m L nax j x d') as ((T1 & T2 & T3 & T4) & T5); auto.
    apply (shp_eq_fsz nax); try congruence. unfold rank in *. rewrite T2. exact Hg. unfold rank in *. congruence.
Qed.

Lemma dlevel_sizes D dlo dhi m L nax j x : 1 <= D <= 3 -> List.length nax = D -> wf x -> good_axes (rank x) nax ->
  List.length dlo = L -> List.length dhi = L -> 1 <= j ->
  lsizes nax (dlevel D dlo dhi m nax j x) = map (len_after L j) (gather nax 0 (shp x)) /\
  exists h r, dlevel D dlo dhi m nax j x = h :: r.
Proof.
  intros HD Hn Hw Hg H1 H2 Hj. destruct (dlevel D dlo dhi m nax j x) as [|h r] eqn:E.
  - exfalso. destruct (dlevel_level_ok D dlo dhi m L nax j x) as [Hl _]; auto. rewrite E in Hl. cbn [List.length] in Hl.
    assert (D = 1 \/ D = 2 \/ D = 3) as [->|[->| ->]] by lia; discriminate.
  - split; [|eauto]. cbn [lsizes]. apply (dlevel_in D dlo dhi m L nax j x h); auto. rewrite E. left. reflexivity.
Qed.

Lemma spec_fits D dlo dhi m L nax J x : 1 <= D <= 3 -> List.length nax = D -> wf x -> good_axes (rank x) nax ->
  List.length dlo = L -> List.length dhi = L -> 2 <= L -> Nat.even L = true -> levels_all m L J (gather nax 0 (shp x)) ->
  coeffs_fit (2 ^ D - 1) nax L (approx dlo m nax J x) (dlevels D dlo dhi m nax J x).
Proof.
  intros HD Hn Hw Hg H1 H2 HL He Hlev. destruct (approx_ok dlo m nax J x Hw Hg) as (A1 & A2 & A3 & A4). split.
  - unfold dlevels. apply Forall_map, Forall_forall. intros j Hj. apply in_rev, in_seq in Hj. rewrite A2, A3, A4. split.
    + apply (dlevel_level_ok D dlo dhi m L); auto; lia.
    + apply Forall_forall. intros d Hd. apply (dlevel_in D dlo dhi m L nax j x d); auto; lia.
  - rewrite (approx_sizes dlo m L nax J x Hg H1). unfold dlevels. rewrite map_map.
    rewrite (map_ext_in _ (fun j => map (len_after L j) (gather nax 0 (shp x)))).
    2:{ intros j Hj. apply in_rev, in_seq in Hj. apply (dlevel_sizes D); auto. lia. }
    set (ns := gather nax 0 (shp x)) in *. clear - HL He Hlev. unfold levels_all in Hlev.
    induction J as [|J IH]; [exact I|]. rewrite seq_S, rev_app_distr. cbn [rev app map sizes_fit]. change (1 + J) with (S J).
    split; [reflexivity|]. split.
    { apply Forall_map. eapply Forall_impl; [|exact Hlev]. cbv beta. intros n Hl. rewrite len_after_S. specialize (Hl J ltac:(lia)).
      apply adm_size in Hl; [|exact HL]. unfold dwt_len. lia. }
    destruct J as [|J]; [exact I|].
    assert (Hlev' : Forall (levels_ok m L (S J)) ns) by (eapply Forall_impl; [|exact Hlev]; intros n Hl j Hj; apply Hl; lia).
    specialize (IH Hlev').
    destruct (map (fun j => map (len_after L j) ns) (rev (seq 1 (S J)))) as [|d rest] eqn:E; [exact I|].
    assert (Hd : d = map (len_after L (S J)) ns).
    { rewrite seq_S, rev_app_distr in E. cbn [rev app map] in E. change (1 + J) with (S J) in E. congruence. }
    subst d. split; [|exact IH]. clear - HL He Hlev. induction Hlev as [|n ns Hl Hlev IH]; cbn [map]; constructor; [|exact IH].
    rewrite (len_after_S L (S J)). unfold dwt_len. apply Nat.even_spec in He as [q He]. specialize (Hl (S J) ltac:(lia)).
    apply adm_size in Hl; [|exact HL]. lia.
Qed.

Lemma recN_pr D J : forall dlo dhi rlo rhi L m nax x, cancel2 K -> pr_bank dlo dhi rlo rhi L ->
  1 <= D <= 3 -> List.length nax = D -> wf x -> good_axes (rank x) nax ->
  levels_all m L J (gather nax 0 (shp x)) ->
  recN_spec L (chansD D rlo rhi) nax (approx dlo m nax J x) (dlevels D dlo dhi m nax J x)
  = match J with O => x | _ => ext_even m nax x end.
Proof.
  induction J as [|J IH]; intros dlo dhi rlo rhi L m nax x Hc Hpr HD Hn Hw Hg Hlev; [reflexivity|].
  rewrite dlevels_S. cbn [recN_spec].
  pose proof (pr_len _ _ _ _ _ Hpr) as (H1 & H2 & H3 & H4). pose proof (pr_two _ _ _ _ _ Hpr) as HL.
  set (xj := approx dlo m nax J x).
  destruct (approx_ok dlo m nax J x Hw Hg) as (Hxw & Hxr & Hxf & _). fold xj in Hxw, Hxr, Hxf.
  assert (Hgj : good_axes (rank xj) nax) by (rewrite Hxr; exact Hg).
  assert (Hadm : adm_axes m L nax (shp xj)) by (apply (levels_axes_adm dlo m L (S J) nax x J); auto).
  set (outs := recN_outs L nax (approx dlo m nax (S J) x) (dlevels D dlo dhi m nax J x)).
  assert (Ho : outs = match J with O => map even_up (gather nax 0 (shp x)) | _ => gather nax 0 (shp xj) end).
  { unfold outs, recN_outs. destruct J as [|J].
    - cbn [dlevels seq rev map]. unfold dlevels. cbn [seq rev map]. rewrite (approx_sizes dlo m L nax 1 x Hg H1), map_map.
      apply map_ext_in. intros n Hin. cbn [len_after]. unfold dwt_len, even_up.
      pose proof (pr_even _ _ _ _ _ Hpr) as He. apply Nat.even_spec in He as [q He].
      unfold levels_all in Hlev. rewrite Forall_forall in Hlev. specialize (Hlev n Hin 0 ltac:(lia)). cbn [len_after] in Hlev. apply adm_size in Hlev; [|exact HL]. lia.
    - rewrite dlevels_S. destruct (dlevel_sizes D dlo dhi m L nax (S J) x) as [Hls (hh & rr & E)]; auto; try lia.
      rewrite E in Hls |- *. cbn [lsizes] in Hls. rewrite Hls. unfold xj. rewrite (approx_sizes dlo m L nax (S J) x Hg H1). reflexivity. }
  assert (Hstep : idwtN L (chansD D rlo rhi) nax (approx dlo m nax (S J) x) (dlevel D dlo dhi m nax (S J) x) outs = ext_to m nax outs xj).
  { rewrite <- (idwt_dwt D dlo dhi rlo rhi L m nax xj outs); auto.
    - rewrite idwtN_D. apply idwt_axes_ext; [pose proof (Nat.pow_nonzero 2 D); lia|reflexivity|].
      intros c Hcc. unfold dlevel, detail. replace (S J - 1) with J by lia. fold xj. rewrite approx_S. fold xj. rewrite Hn.
      set (f := fun fs => dwt_axes fs m nax xj). change (nth c (f (repeat dlo D) :: map f (tl (chansD D dlo dhi))) (f (repeat dlo D)) = f (bsels dlo dhi (chanD D c))).
      destruct (chansD_cons D dlo dhi HD) as (g1 & gr & Ec).
      replace (f (repeat dlo D) :: map f (tl (chansD D dlo dhi))) with (map f (chansD D dlo dhi)) by (rewrite Ec; reflexivity).
      rewrite map_nth. f_equal. unfold chansD.
      rewrite (nth_indep _ _ ((fun c => bsels dlo dhi (chanD D c)) 0)) by (rewrite map_length, seq_length; exact Hcc).
      rewrite (map_nth (fun c => bsels dlo dhi (chanD D c))), seq_nth by exact Hcc. reflexivity.
    - rewrite Ho. destruct J as [|J].
      + change (gather nax 0 (shp xj)) with (gather nax 0 (shp x)). generalize (gather nax 0 (shp x)). clear. induction l; cbn; constructor; auto.
      + generalize (gather nax 0 (shp xj)). clear. induction l; constructor; auto. unfold even_up. lia. }
  rewrite Hstep. destruct J as [|J].
  - cbn [dlevels seq rev map recN_spec]. unfold dlevels. cbn [seq rev map recN_spec]. rewrite Ho. unfold xj. reflexivity.
  - rewrite Ho, ext_to_id by assumption. unfold xj. rewrite (IH dlo dhi rlo rhi L m nax x); auto.
    eapply Forall_impl; [|exact Hlev]. intros n Hl j Hj. apply Hl. lia.
Qed.

Theorem waverec2_wavedec2_spec w m L J h axes x : cancel2 K -> pr_bank (dec_lo w) (dec_hi w) (rec_lo w) (rec_hi w) L ->
  wf x -> is_dtype_supported (tdtype x) = true -> hint_axes h 2 = Some axes -> List.length axes = 2 -> axes_ok (rank x) axes ->
  let nax := map (norm_axis (rank x)) axes in
  levels_all m L J (gather nax 0 (shp x)) ->
  waverec2 (wavedec2_spec (dec_lo w) (dec_hi w) m nax J x) w h = Ok (match J with O => x | _ => ext_even m nax x end).
Proof.
  intros Hc Hpr Hw Hd Hh Hla Hax nax Hlev. pose proof (pr_len _ _ _ _ _ Hpr) as (H1 & H2 & H3 & H4).
  pose proof (pr_two _ _ _ _ _ Hpr) as HL. pose proof (good_axes_ok _ _ Hax) as Hg. fold nax in Hg.
  assert (Hn : List.length nax = 2) by (unfold nax; rewrite map_length; exact Hla).
  rewrite spec2_levels. destruct (approx_ok (dec_lo w) m nax J x Hw Hg) as (A1 & A2 & A3 & A4).
  rewrite (waverec2_ok _ _ w L h axes); auto; rewrite ?A2; auto.
  - fold nax. rewrite chans2_D. f_equal. apply recN_pr; auto; lia.
  - unfold tdtype. rewrite A4. exact Hd.
  - fold nax. apply (spec_fits 2 _ _ m L nax J x); auto; try lia. apply (pr_even _ _ _ _ _ Hpr).
Qed.
Theorem waverec3_wavedec3_spec w m L J h axes x : cancel2 K -> pr_bank (dec_lo w) (dec_hi w) (rec_lo w) (rec_hi w) L ->
  wf x -> is_dtype_supported (tdtype x) = true -> hint_axes h 3 = Some axes -> List.length axes = 3 -> axes_ok (rank x) axes ->
  let nax := map (norm_axis (rank x)) axes in
  levels_all m L J (gather nax 0 (shp x)) ->
  waverec3 (wavedec3_spec (dec_lo w) (dec_hi w) m nax J x) w h = Ok (match J with O => x | _ => ext_even m nax x end).
Proof.
  intros Hc Hpr Hw Hd Hh Hla Hax nax Hlev. pose proof (pr_len _ _ _ _ _ Hpr) as (H1 & H2 & H3 & H4).
  pose proof (pr_two _ _ _ _ _ Hpr) as HL. pose proof (good_axes_ok _ _ Hax) as Hg. fold nax in Hg.
  assert (Hn : List.length nax = 3) by (unfold nax; rewrite map_length; exact Hla).
  rewrite spec3_levels. destruct (approx_ok (dec_lo w) m nax J x Hw Hg) as (A1 & A2 & A3 & A4).
  rewrite (waverec3_ok _ _ w L h axes); auto; rewrite ?A2; auto.
  - fold nax. rewrite chans3_D. f_equal. apply recN_pr; auto; lia.
  - unfold tdtype. rewrite A4. exact Hd.
  - fold nax. apply (spec_fits 3 _ _ m L nax J x); auto; try lia. apply (pr_even _ _ _ _ _ Hpr).
Qed.
End RN.
