(** MatrixWavedec2/3 and MatrixWaverec2/3: what a call on an object with an intact cache returns, and that the cache
    stays intact. *)
From Coq Require Import List Arith ZArith Lia Bool String Ring.
From Coq Require Import ZifyNat ZifyBool.
From Verif Require Import Base Sums Tensor TensorFacts Util Perm Plumb Accept Spec Conv1 Conv2 PadFacts CoreFacts Synthesis Filters Wave1 RecN Sep SepFacts Lin Sparse SparseFacts SpecMat SpecMatN SparseMM LinAlg Mat1 MatN MatPre Mat1Facts MatNFacts MatNLoop MatNSep.
Import ListNotations.
Ltac Zify.zify_post_hook ::= Z.div_mod_to_equations.
Local Arguments Nat.div : simpl never.
Local Arguments Nat.modulo : simpl never.

Lemma half_up_double s : map (fun n => n * 2) (map half_up s) = map even_up s.
Proof. rewrite map_map. apply map_ext. intros n. unfold half_up. pose proof (even_up_even n). lia. Qed.
Lemma nth_error_rev {A} (l : list A) J : List.length l = J -> map (fun c => nth_error l (J - 1 - c)) (seq 0 J) = map Some (rev l).
Proof.
  intros <-. induction l as [|a l IH] using rev_ind; [reflexivity|]. rewrite rev_app_distr, app_length. cbn [List.length rev app map]. rewrite Nat.add_1_r. cbn [seq map].
  f_equal; [rewrite nth_error_app2 by lia; replace (S (List.length l) - 1 - 0 - List.length l) with 0 by lia; reflexivity|].
  rewrite <- IH, <- seq_shift, map_map. apply map_ext_in. intros c Hc. apply in_seq in Hc. rewrite nth_error_app1 by lia. f_equal. lia.
Qed.

Lemma map_3_cons {A B} (f : A -> B) (l : list A) : List.length l = 3 -> exists a l', map f l = f a :: map f l'.
Proof. intros H. destruct l as [|a l']; [discriminate|]. exists a, l'. reflexivity. Qed.

(** which lists of sizes the caches may be for: any *)
Definition anyd (_ : list nat) : Prop := True.
Lemma anyd_map (f : nat -> nat) s : anyd s -> anyd (map f s). Proof. exact (fun H => H). Qed.

Section NC.
Context {K : CRing}.
Add Ring Kring : (cr_th K).
Open Scope K_scope.
Implicit Types (t u x : tensor K).

Lemma pre_ext_even_n m nax L x : wf x -> good_axes (rank x) nax -> (2 <= L)%nat -> Forall (fun n => (L <= n)%nat) (gather nax 0%nat (shp x)) ->
  pre_t nax (ext_even m nax x) = E m (pre_t nax x).
Proof.
  intros Hw Hg HL Hn. unfold ext_even. apply (pre_along (map even_up) (fun s X ks => ext_get m s X (map Z.of_nat ks)) nax x Hw Hg).
  - intros X X' k Hk H. apply ext_get_ext; [rewrite map_length; exact Hk| |exact H]. eapply Forall_impl; [|exact Hn]. cbn. intros n H'. apply extendable2. lia.
  - rewrite map_length, gather_length. reflexivity.
Qed.
Lemma fitsN_ge L J s : fitsN L J s -> (0 < J)%nat -> Forall (fun n => (L <= n)%nat) s.
Proof. destruct J; [lia|]. intros [H _] _. exact H. Qed.
(** the result of a synthesis loop, put back on the original axes *)
Lemma post_rec m N L axes nax J x bk : (0 < N)%nat -> List.length axes = N -> axes_ok (rank x) axes -> nax = map (norm_axis (rank x)) axes -> wf x -> (2 <= L)%nat ->
  fitsN L J (gather nax 0%nat (shp x)) -> List.length bk = N ->
  postprocess_tensor (if Nat.eqb J 0 then pre_t nax x else E m (pre_t nax x)) N (fsz nax (shp x) ++ bk) (AxSeq axes) = Ok (if Nat.eqb J 0 then x else ext_even m nax x).
Proof.
  intros H0 Hla Hax Hnx Hw HL Hf Hbk. assert (Hg : good_axes (rank x) nax) by (rewrite Hnx; apply good_axes_ok, Hax).
  assert (HN : List.length nax = N) by (rewrite Hnx, map_length; exact Hla).
  assert (Hres : (if Nat.eqb J 0 then pre_t nax x else E m (pre_t nax x)) = pre_t nax (if Nat.eqb J 0 then x else ext_even m nax x)).
  { destruct (Nat.eqb_spec J 0) as [E0|E0]; [reflexivity|]. symmetry. apply (pre_ext_even_n m nax L x Hw Hg HL). apply (fitsN_ge L J); [exact Hf|lia]. }
  rewrite Hres. set (R := if Nat.eqb J 0 then x else ext_even m nax x).
  assert (HR : wf R /\ rank R = rank x /\ fsz nax (shp R) = fsz nax (shp x)).
  { unfold R. destruct (Nat.eqb J 0); [auto|]. split; [apply wf_make|]. split; [apply rank_along|]. apply fsz_along, Hg. }
  destruct HR as (R1 & R2 & R3). assert (HgR : good_axes (rank R) nax) by (rewrite R2; exact Hg).
  rewrite (postprocess_tensor_ok (pre_t nax R) N (AxSeq axes) axes (rank x)); auto.
  - rewrite <- Hnx, <- R3. f_equal. apply post_pre; assumption.
  - cbn. rewrite Hla, Nat.eqb_refl. reflexivity.
  - rewrite fsz_length by exact Hg. rewrite HN. reflexivity.
  - apply pre_t_wf, HgR.
  - exists (gather nax 0%nat (shp R)). split; [rewrite <- R3; reflexivity|rewrite gather_length; exact HN].
Qed.

Lemma last_cons {A} (a : A) l d : last (l ++ [a]) d = a.
Proof. induction l as [|b l IH]; [reflexivity|]. cbn [app last]. destruct (l ++ [a]) eqn:E; [destruct l; discriminate|exact IH]. Qed.
Lemma gcoeffs_last (wrap : list (tensor K) -> pyval K) (kk : list (list bool)) N bd' J t d : (0 < J)%nat -> last (gcoeffs N wrap kk bd' J t) d = wrap (map (fun k => bd' k t) kk).
Proof.
  intros HJ. destruct J as [|J]; [lia|]. unfold gcoeffs. cbn [seq rev]. rewrite map_app, app_comm_cons. cbn [map]. rewrite last_cons. reflexivity.
Qed.

(** ** two dimensions *)
Section Two.
Variables (LA : linalg K) (w : wavelet K) (method : string) (L : nat) (g : tag) (sep : bool).
Variables lm ls : list nat -> list (smat K).
Variable two : list nat -> Prop.
Hypothesis Htwo : forall (f : nat -> nat) s, two s -> two (map f s).
Hypothesis two2 : forall s, List.length s = 2%nat -> two s.
Hypothesis Hlm : forall s, two s -> Forall (fun n => (L <= n)%nat) s -> Forall (fun n => (n mod 2 = 0)%nat) s -> level_mats_a LA sep g w method s = Ok (lm s).
Hypothesis Hls : forall s, two s -> Forall (fun n => (L <= n)%nat) s -> Forall (fun n => (n mod 2 = 0)%nat) s -> level_mats_s LA sep g w method s = Ok (ls s).
Hypothesis Hdl : List.length (dec_lo w) = L.
Hypothesis Hrl : List.length (rec_lo w) = L.
Hypothesis HL : (2 <= L)%nat.
Variables (M : list nat -> list nat -> list nat -> K) (m : mode) (ks : list (list bool)) (okb : nat -> nat -> Prop).
Hypothesis Hks : List.length ks = 3%nat.
Notation bd := (bandc M m).
Definition detsK t : pyval K := PTup (map (fun k => bd k t) ks).
(** the loop of a call on a preprocessed tensor *)
Definition run2 (o : mwavedecn K) t : result (tensor K * list (pyval K)) :=
  if wn_sep o then mw2_loop (wn_wav o) (wn_odd o) (wn_mats o) (wn_pads o) (wn_sizes o) t []
  else let b := nth 0 (shp t) 0%nat in
       let* v := to_cols t in
       let* r := mw2n_loop (wn_wav o) (wn_odd o) b (wn_mats o) (wn_pads o) (wn_sizes o) v [] in
       match wn_mats o with
       | [] => Raise UnboundLocalError
       | _ => let s := nth (List.length (wn_mats o) - 1) (wn_sizes o) [] in
              let* ll := of_cols (fst r) b (nth 0 s 0%nat / 2) (nth 1 s 0%nat / 2) in Ok (ll, snd r)
       end.
Variable odd : option string.
Hypothesis Hrun : forall (o : mwavedecn K) J t b h v rest, wn_wav o = w -> wn_odd o = odd -> wn_sep o = sep ->
  wn_mats o = bmatsN lm J [h; v] -> wn_pads o = bpadsN J [h; v] -> wn_sizes o = bsizesN J [h; v] ++ rest ->
  wf t -> shp t = [b; h; v] -> ttag t = g -> fitsN L J [h; v] -> okb b J ->
  run2 o t = Ok (Nat.iter J (bd bLL) t, map (fun j => detsK (Nat.iter j (bd bLL) t)) (rev (seq 0 J))).
Hypothesis Hrec : forall J t b h v, wf t -> shp t = [b; h; v] -> ttag t = g -> fitsN L J [h; v] -> ((0 < J)%nat -> (0 < b)%nat) ->
  mr2_loop sep (rev (bmatsN ls J [h; v])) (Nat.iter J (bd bLL) t) (map (fun j => detsK (Nat.iter j (bd bLL) t)) (rev (seq 0 J))) = Ok (if Nat.eqb J 0 then t else E m t).

Lemma wrap2_map (f : tensor K -> tensor K) l : pv_map f (PTup l) = PTup (map f l). Proof. reflexivity. Qed.
Lemma wrap2_t (l : list (tensor K)) : List.length l = List.length ks -> pv_tensors (PTup l) = l. Proof. reflexivity. Qed.
Lemma wrap2_ok (l : list (tensor K)) : List.length l = List.length ks -> pv_ok (PTup l) /\ kind_ok false [PTup l].
Proof. intros H. rewrite Hks in H. split; [exact H|reflexivity]. Qed.
Lemma bwn2_g axs J x : List.length axs = 2%nat -> bwn2_coeffs M m axs ks J x = mkPC false (gcoeffs 2 PTup ks (bwn_band M m axs) J x).
Proof. intros H. unfold bwn2_coeffs, bwn_approx, gcoeffs. rewrite H. reflexivity. Qed.

Theorem mw2_call_ok (o : mwavedecn K) x axes lev : wn_conf w method sep o odd axes ->
  wf x -> is_dtype_supported (tdtype x) = true -> ttag x = g -> List.length axes = 2%nat -> axes_ok (rank x) axes ->
  let nax := map (norm_axis (rank x)) axes in let s := gather nax 0%nat (shp x) in
  wn_cached L two lm o -> wn_lev w (wn_level o) s = Ok lev ->
  let J := bwn_levels (Z.to_nat lev) L s in
  okb (prodl (fsz nax (shp x))) J ->
  exists o', mw2_call LA o x = (o', Ok (bwn2_coeffs M m nax ks J x)) /\ wn_conf w method sep o' odd axes /\ wn_level o' = Some lev /\ wn_cached L two lm o' /\
    wn_mats o' = bmatsN lm J s /\ wn_padded o' = anypad J s.
Proof.
  intros Hc Hw Hdt Hg Hla Hax nax s Hinv Hlev J Hok. pose proof (good_axes_ok _ _ Hax) as Hga. fold nax in Hga.
  assert (HN : List.length nax = 2%nat) by (unfold nax; rewrite map_length; exact Hla).
  assert (Hls2 : List.length s = 2%nat) by (unfold s; rewrite gather_length; exact HN).
  assert (Hfit : fitsN L J s) by apply fits_levels_n.
  destruct (prepare_n_ok LA w method L g sep two Htwo lm Hlm Hdl o odd axes s lev Hc (two2 _ Hls2) Hinv Hlev) as (o' & rest & P1 & P2 & P3 & P4 & P5 & P6 & P7 & P8). fold J in P4, P5, P6, P7.
  pose proof Hc as (_ & _ & _ & _ & Ea). pose proof P2 as (E1 & _ & E3 & E4 & E5).
  exists o'. split; [|auto 10].
  unfold mw2_call. rewrite Ea. rewrite (preprocess_tensor_ok x 2 (AxSeq axes) axes false Hw Hdt); auto; [|cbn; rewrite Hla; reflexivity]. fold nax. cbn match.
  change (tl (shp (pre_t nax x))) with s. change (ttag (pre_t nax x)) with (ttag x). rewrite Hg, P1.
  apply (f_equal2 pair eq_refl). fold (run2 o' (pre_t nax x)).
  assert (Hsh : exists h v, s = [h; v]) by (destruct s as [|h [|v [|? ?]]]; try discriminate; eauto). destruct Hsh as (h & v & Hsv).
  rewrite (Hrun o' J (pre_t nax x) (prodl (fsz nax (shp x))) h v rest); auto; try congruence; [|apply pre_t_wf, Hga|change (shp (pre_t nax x)) with (prodl (fsz nax (shp x)) :: s); rewrite Hsv; reflexivity].
  cbn [rbind fst snd]. rewrite E5, (bwn2_g nax J x HN).
  change (mkPC false (PT (Nat.iter J (bd bLL) (pre_t nax x)) :: map (fun j => detsK (Nat.iter j (bd bLL) (pre_t nax x))) (rev (seq 0 J)))) with (mkPC false (gcoeffs 2 PTup ks bd J (pre_t nax x))).
  apply (gcoeffs_post M m nax 2 L HN HL PTup ks wrap2_map wrap2_t wrap2_ok axes J x); auto.
Qed.

Theorem mr2_call_ok (r : mwaverecn K) X axes J : rn_conf w method sep r axes ->
  wf X -> is_dtype_supported (tdtype X) = true -> ttag X = g -> List.length axes = 2%nat -> axes_ok (rank X) axes ->
  let nax := map (norm_axis (rank X)) axes in let s := gather nax 0%nat (shp X) in
  fitsN L J s -> rn_cached L two ls r -> (0 < prodl (fsz nax (shp X)))%nat ->
  exists r', mr2_call LA r (pc_items (bwn2_coeffs M m nax ks J X)) = (r', Ok (if Nat.eqb J 0 then X else ext_even m nax X)) /\ rn_conf w method sep r' axes /\ rn_cached L two ls r' /\
    ((0 < J)%nat -> rn_mats r' = bmatsN ls J s /\ (rn_mats r = [] -> rn_padded r' = anypad J (map even_up s))).
Proof.
  intros Hc HwX Hdt HgX Hla Hax nax s Hfit Hinv Hb. pose proof (good_axes_ok _ _ Hax) as Hga. fold nax in Hga.
  assert (HN : List.length nax = 2%nat) by (unfold nax; rewrite map_length; exact Hla).
  assert (Hls2 : List.length s = 2%nat) by (unfold s; rewrite gather_length; exact HN).
  rewrite (bwn2_g nax J X HN). cbn [pc_items].
  destruct (gcoeffs_preproc M m nax 2 L HN HL PTup ks wrap2_map wrap2_t wrap2_ok axes J X) as (bk & Hpre & Hbk); auto.
  pose proof Hc as (_ & _ & _ & Ea). unfold mr2_call. rewrite Ea, Hpre. cbn [rbind fst snd].
  assert (Hsame : check_same_device_dtype (mkPC false (gcoeffs 2 PTup ks bd J (pre_t nax X))) = Ok g).
  { rewrite <- (gcoeffs_map M m nax 2 L HN HL PTup ks wrap2_map J X HwX Hga Hfit). apply check_same_reg.
    - apply pc_map_regular, (gcoeffs_regular 2 PTup ks wrap2_ok).
    - rewrite pc_map_tensors. intros t Ht. apply in_map_iff in Ht as (q & <- & Hq). destruct (gcoeffs_facts M m nax 2 L HN HL PTup ks wrap2_t J X HwX Hga Hfit q Hq) as (_ & _ & _ & T4). change (ttag q = g). congruence. }
  rewrite Hsame. cbn [rbind pc_items].
  set (b := prodl (fsz nax (shp X))) in *. assert (HsX : shp (pre_t nax X) = b :: s) by reflexivity.
  assert (Hsh : exists h v, s = [h; v]) by (destruct s as [|h [|v [|? ?]]]; try discriminate; eauto). destruct Hsh as (h & v & Hsv).
  assert (Hhs : exists hs, head_shape (last (gcoeffs 2 PTup ks bd J (pre_t nax X)) POther) = Ok hs /\ List.length hs = 2%nat /\ ((0 < J)%nat -> map (fun n => n * 2)%nat hs = map even_up s)).
  { destruct (Nat.eq_dec J 0) as [->|HJ].
    - cbn [gcoeffs seq rev map last head_shape Nat.iter nat_rect]. rewrite HsX, Hsv. destruct b as [|b']; [lia|]. eexists. split; [reflexivity|]. split; [reflexivity|lia].
    - rewrite gcoeffs_last by lia. destruct (map_3_cons (fun k => bd k (pre_t nax X)) ks Hks) as (k0 & ks' & Ek). rewrite Ek. cbn [head_shape]. rewrite (shp_bandc M m k0 (pre_t nax X) b s HsX), Hsv. cbn [map last2 List.length Nat.sub skipn].
      eexists. split; [reflexivity|]. split; [reflexivity|]. intros _. apply (half_up_double [h; v]). }
  destruct Hhs as (hs & Hh1 & Hh2 & Hh3). rewrite Hh1. cbn [rbind]. unfold unpack. rewrite Hh2, Nat.eqb_refl. cbn [rbind].
  assert (Hlen : (List.length (gcoeffs 2 PTup ks bd J (pre_t nax X)) - 1)%nat = J) by (unfold gcoeffs; cbn [List.length]; rewrite map_length, rev_length, seq_length; lia).
  rewrite Hlen.
  destruct (prepare_rec_n_ok LA w method L g sep two Htwo ls Hls Hrl r axes (map (fun n => n * 2)%nat hs) J Hc (two2 _ ltac:(rewrite map_length; exact Hh2)) Hinv) as (r' & P1 & P2 & P3 & P4 & P5).
  pose proof P2 as (E1 & _ & E3 & E4). rewrite P1. cbn match.
  assert (Hbm : bmatsN ls (bwn_levels J L (map (fun n => n * 2)%nat hs)) (map (fun n => n * 2)%nat hs) = bmatsN ls J s).
  { destruct (Nat.eq_dec J 0) as [->|HJ]; [reflexivity|]. rewrite Hh3 by lia. rewrite levels_fits_n by (apply fits_even_n, Hfit). destruct J as [|J']; [reflexivity|]. cbn [bmatsN]. rewrite even_up_even_up. f_equal. f_equal.
    rewrite map_map. apply map_ext. intros n. unfold half_up. rewrite (even_up_id _ (even_up_even n)). reflexivity. }
  rewrite Hbm in P3. exists r'. split; [|split; [exact P2|]].
  - apply (f_equal2 pair eq_refl). unfold gcoeffs. rewrite E3, P3, E4.
    change (map (fun j => PTup (map (fun k => bd k (Nat.iter j (bd (repeat false 2)) (pre_t nax X))) ks)) (rev (seq 0 J))) with (map (fun j => detsK (Nat.iter j (bd bLL) (pre_t nax X))) (rev (seq 0 J))).
    change (repeat false 2) with bLL. rewrite Hsv. rewrite (Hrec J (pre_t nax X) b h v); auto; [|apply pre_t_wf, Hga|rewrite <- Hsv; exact HsX|rewrite <- Hsv; exact Hfit].
    cbn [rbind]. apply (post_rec m 2 L axes nax J X bk); auto.
  - split; [exact P4|]. intros HJ. split; [exact P3|]. intros Hr0. rewrite (P5 Hr0), Hh3 by exact HJ. rewrite levels_fits_n by (apply fits_even_n, Hfit). reflexivity.
Qed.
End Two.

(** ** three dimensions *)
Section Three.
Variables (LA : linalg K) (w : wavelet K) (method : string) (m : mode) (L : nat) (g : tag).
Hypothesis HA : mats_ok LA w method L g.
Hypothesis HL : (2 <= L)%nat.
Hypothesis Hdl : List.length (dec_lo w) = L.
Hypothesis Hrl : List.length (rec_lo w) = L.
Hypothesis Htr : forall n, construct_boundary_s LA g w n method = (let* a := construct_boundary_a LA g w n method in Ok (sp_t a)).
Notation A := (Bm LA w method g).
Notation bd := (bandc (tprod A) m).
Notation lm := (lmS LA w method g).
Notation lst := (fun s => map sp_t (lmS LA w method g s)).
Definition wrap3 (l : list (tensor K)) : pyval K := PDict (combine (map band_key bands3) l).
Lemma wrap3_map (f : tensor K -> tensor K) l : pv_map f (wrap3 l) = wrap3 (map f l).
Proof. unfold wrap3, pv_map. f_equal. apply combine_map_r. Qed.
Lemma wrap3_t (l : list (tensor K)) : List.length l = List.length bands3 -> pv_tensors (wrap3 l) = l.
Proof. intros H. unfold wrap3, pv_tensors. apply map_snd_combine. rewrite map_length. symmetry. exact H. Qed.
Lemma wrap3_ok (l : list (tensor K)) : List.length l = List.length bands3 -> pv_ok (wrap3 l) /\ kind_ok false [wrap3 l].
Proof. intros _. split; [exact I|reflexivity]. Qed.
Lemma bwn3_g M axs J x : List.length axs = 3%nat -> bwn3_coeffs M m axs bands3 J x = mkPC false (gcoeffs 3 wrap3 bands3 (bwn_band M m axs) J x).
Proof. intros H. unfold bwn3_coeffs, bwn_approx, gcoeffs. rewrite H. reflexivity. Qed.
Let Hlm : forall s, anyd s -> Forall (fun n => (L <= n)%nat) s -> Forall (fun n => (n mod 2 = 0)%nat) s -> level_mats_a LA true g w method s = Ok (lm s).
Proof. intros s _. apply (lmS_a LA w method L g HA s). Qed.
Let Hls : forall s, anyd s -> Forall (fun n => (L <= n)%nat) s -> Forall (fun n => (n mod 2 = 0)%nat) s -> level_mats_s LA true g w method s = Ok (lst s).
Proof. intros s _. apply (lmS_s LA w method L g HA Htr s). Qed.

Theorem mw3_call_ok (o : mwavedecn K) x axes odd lev : wn_conf w method true o odd axes -> translate_boundary odd = Ok (emode m) ->
  wf x -> is_dtype_supported (tdtype x) = true -> ttag x = g -> List.length axes = 3%nat -> axes_ok (rank x) axes ->
  let nax := map (norm_axis (rank x)) axes in let s := gather nax 0%nat (shp x) in
  wn_cached L anyd lm o -> wn_lev w (wn_level o) s = Ok lev ->
  let J := bwn_levels (Z.to_nat lev) L s in
  exists o', mw3_call LA o x = (o', Ok (bwn3_coeffs (tprod A) m nax bands3 J x)) /\ wn_conf w method true o' odd axes /\ wn_level o' = Some lev /\ wn_cached L anyd lm o'.
Proof.
  intros Hc Ho Hw Hdt Hg Hla Hax nax s Hinv Hlev J. pose proof (good_axes_ok _ _ Hax) as Hga. fold nax in Hga.
  assert (HN : List.length nax = 3%nat) by (unfold nax; rewrite map_length; exact Hla).
  assert (Hls3 : List.length s = 3%nat) by (unfold s; rewrite gather_length; exact HN).
  assert (Hfit : fitsN L J s) by apply fits_levels_n.
  destruct (prepare_n_ok LA w method L g true anyd anyd_map lm Hlm Hdl o odd axes s lev Hc I Hinv Hlev) as (o' & rest & P1 & P2 & P3 & P4 & P5 & P6 & P7 & P8). fold J in P4, P5, P6, P7.
  pose proof Hc as (_ & _ & _ & _ & Ea). pose proof P2 as (E1 & _ & E3 & E4 & E5).
  exists o'. split; [|auto 10].
  unfold mw3_call. rewrite Ea. rewrite (preprocess_tensor_ok x 3 (AxSeq axes) axes false Hw Hdt); auto; [|cbn; rewrite Hla; reflexivity]. fold nax. cbn match.
  change (tl (shp (pre_t nax x))) with s. change (ttag (pre_t nax x)) with (ttag x). rewrite Hg, P1.
  apply (f_equal2 pair eq_refl). rewrite E1, E4, P4, P5, E5.
  assert (Hsh : exists n1 n2 n3, s = [n1; n2; n3]) by (destruct s as [|n1 [|n2 [|n3 [|? ?]]]]; try discriminate; eauto). destruct Hsh as (n1 & n2 & n3 & Hsv). rewrite Hsv.
  rewrite (mw3_loop_ok LA w method m L g HA HL Hdl Hrl Htr odd Ho J (pre_t nax x) (prodl (fsz nax (shp x))) n1 n2 n3); auto; [|apply pre_t_wf, Hga|change (shp (pre_t nax x)) with (prodl (fsz nax (shp x)) :: s); rewrite Hsv; reflexivity|rewrite <- Hsv; exact Hfit].
  cbn [rbind fst snd]. rewrite app_nil_r, (bwn3_g _ nax J x HN).
  change (mkPC false (PT (Nat.iter J (bd AAA) (pre_t nax x)) :: map (fun j => PDict (ddict LA w method m g (Nat.iter j (bd AAA) (pre_t nax x)))) (rev (seq 0 J)))) with (mkPC false (gcoeffs 3 wrap3 bands3 bd J (pre_t nax x))).
  apply (gcoeffs_post (tprod A) m nax 3 L HN HL wrap3 bands3 wrap3_map wrap3_t wrap3_ok axes J x); auto; lia.
Qed.

Lemma bmatsN_len J : forall s, List.length (bmatsN (K := K) lm J s) = J.
Proof. induction J as [|J IH]; intros s; cbn [bmatsN List.length]; [reflexivity|]. rewrite IH. reflexivity. Qed.
(** the caller's dictionaries after a call: with the default axes and one batch axis they are the very dictionaries the
    call works on *)
Definition spoiled3 (nax : list nat) (J : nat) X : list (pyval K) :=
  PT (Nat.iter J (bd AAA) (pre_t nax X)) ::
  map (fun j => PDict (dict_set (ddict LA w method m g (Nat.iter j (bd AAA) (pre_t nax X))) "aaa" (stored LA w method m g J j (pre_t nax X)))) (rev (seq 0 J)).
Theorem mr3_call_ok (r : mwaverecn K) X axes J : rn_conf w method true r axes ->
  wf X -> is_dtype_supported (tdtype X) = true -> ttag X = g -> List.length axes = 3%nat -> axes_ok (rank X) axes ->
  let nax := map (norm_axis (rank X)) axes in let s := gather nax 0%nat (shp X) in
  fitsN L J s -> rn_cached L anyd lst r -> (0 < J)%nat ->
  let cs := pc_items (bwn3_coeffs (tprod A) m nax bands3 J X) in
  exists r', mr3_call LA r cs = (r', Ok (ext_even m nax X), if pre_aliases (mkPC false cs) 3 (AxSeq axes) then spoiled3 nax J X else cs) /\ rn_conf w method true r' axes /\ rn_cached L anyd lst r'.
Proof.
  intros Hc HwX Hdt HgX Hla Hax nax s Hfit Hinv HJ cs. pose proof (good_axes_ok _ _ Hax) as Hga. fold nax in Hga.
  assert (HN : List.length nax = 3%nat) by (unfold nax; rewrite map_length; exact Hla).
  assert (Hls3 : List.length s = 3%nat) by (unfold s; rewrite gather_length; exact HN).
  unfold cs. rewrite (bwn3_g _ nax J X HN). cbn [pc_items].
  destruct (gcoeffs_preproc (tprod A) m nax 3 L HN HL wrap3 bands3 wrap3_map wrap3_t wrap3_ok axes J X) as (bk & Hpre & Hbk); auto; try lia.
  pose proof Hc as (_ & _ & _ & Ea). unfold mr3_call. rewrite Ea, Hpre. cbn [rbind fst snd].
  assert (Hsame : check_same_device_dtype (mkPC false (gcoeffs 3 wrap3 bands3 bd J (pre_t nax X))) = Ok g).
  { rewrite <- (gcoeffs_map (tprod A) m nax 3 L HN HL wrap3 bands3 wrap3_map J X HwX Hga Hfit). apply check_same_reg.
    - apply pc_map_regular, (gcoeffs_regular 3 wrap3 bands3 wrap3_ok).
    - rewrite pc_map_tensors. intros t Ht. apply in_map_iff in Ht as (q & <- & Hq). destruct (gcoeffs_facts (tprod A) m nax 3 L HN HL wrap3 bands3 wrap3_t J X HwX Hga Hfit q Hq) as (_ & _ & _ & T4). change (ttag q = g). congruence. }
  rewrite Hsame. cbn [rbind pc_items].
  set (b := prodl (fsz nax (shp X))) in *. assert (HsX : shp (pre_t nax X) = b :: s) by reflexivity.
  assert (Hsh : exists n1 n2 n3, s = [n1; n2; n3]) by (destruct s as [|n1 [|n2 [|n3 [|? ?]]]]; try discriminate; eauto). destruct Hsh as (n1 & n2 & n3 & Hsv).
  rewrite gcoeffs_last by exact HJ. cbn [wrap3 bands3 map combine band_key Sep.dict_get String.eqb Ascii.eqb Bool.eqb]. cbn match.
  pose proof (shp_bandc (tprod A) m [true; true; true] (pre_t nax X) b s HsX) as HsB. rewrite Hsv in HsB. cbn [map] in HsB.
  unfold rank. rewrite HsB. cbn [List.length Nat.sub skipn]. cbn [rbind]. unfold unpack. cbn [List.length Nat.eqb rbind].
  assert (Hlen : (List.length (gcoeffs 3 wrap3 bands3 bd J (pre_t nax X)) - 1)%nat = J) by (unfold gcoeffs; cbn [List.length]; rewrite map_length, rev_length, seq_length; lia).
  cbv zeta. rewrite Hlen. change [(even_up n1 / 2)%nat; (even_up n2 / 2)%nat; (even_up n3 / 2)%nat] with (map half_up [n1; n2; n3]). rewrite half_up_double, <- Hsv.
  destruct (prepare_rec_n_ok LA w method L g true anyd anyd_map lst Hls Hrl r axes (map even_up s) J Hc I Hinv) as (r' & P1 & P2 & P3 & P4 & P5).
  pose proof P2 as (E1 & _ & E3 & E4). rewrite P1. cbn match.
  assert (Hbm : bmatsN lst (bwn_levels J L (map even_up s)) (map even_up s) = bmatsN lst J s).
  { rewrite levels_fits_n by (apply fits_even_n, Hfit). destruct J as [|J']; [reflexivity|]. cbn [bmatsN]. rewrite even_up_even_up. f_equal. f_equal.
    rewrite map_map. apply map_ext. intros n. unfold half_up. rewrite (even_up_id _ (even_up_even n)). reflexivity. }
  rewrite Hbm, <- bmatsN_t in P3. exists r'. split; [|auto].
  unfold gcoeffs. rewrite P3, E4. unfold from_level. rewrite nth_error_rev by (rewrite map_length; apply bmatsN_len).
  change (map (fun j => wrap3 (map (fun k => bd k (Nat.iter j (bd (repeat false 3)) (pre_t nax X))) bands3)) (rev (seq 0 J))) with (map (fun j => PDict (ddict LA w method m g (iter3 LA w method m g j (pre_t nax X)))) (rev (seq 0 J))).
  change (Nat.iter J (bd (repeat false 3)) (pre_t nax X)) with (iter3 LA w method m g J (pre_t nax X)).
  pose proof (mr3_loop_ok LA w method m L g HA HL Hdl Hrl Htr J (pre_t nax X) b n1 n2 n3 [] [] (pre_t_wf nax X Hga) ltac:(rewrite <- Hsv; exact HsX) HgX ltac:(rewrite <- Hsv; exact Hfit)) as HM.
  rewrite !app_nil_r in HM. rewrite Hsv, HM. cbn [mr3_loop]. rewrite app_nil_r.
  cbn [rbind]. rewrite (post_rec m 3 L axes nax J X bk); auto; try lia. destruct (Nat.eqb_spec J 0); [lia|]. reflexivity.
Qed.
End Three.
End NC.
