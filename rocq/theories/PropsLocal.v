(** C68 for wavedec, wavedec2, wavedec3, fswavedec2 and fswavedec3. *)
From Coq Require Import List Arith ZArith Lia Bool String Ascii.
From Verif Require Import Base Sums Tensor TensorFacts Util Perm Plumb Accept Spec Conv1 PadFacts CoreFacts Analysis AnalysisInv PRKernel Synthesis Filters Lin Wave1 Props1 Conv2 Conv3 Spec2 WaveN Sep SpecSep SepFacts Unified PropsNd Local Examples.
Import ListNotations.
Local Open Scope nat_scope.

Section P.
Context {K : CRing}.
Implicit Types x : tensor K.
Implicit Types w : wavelet K.
(** two containers of the same form whose tensors are related *)
Inductive pv_rel (R : tensor K -> tensor K -> Prop) : pyval K -> pyval K -> Prop :=
| rel_T t t' : R t t' -> pv_rel R (PT t) (PT t')
| rel_tup l l' : Forall2 R l l' -> pv_rel R (PTup l) (PTup l')
| rel_dict d d' : Forall2 (fun e e' => fst e = fst e' /\ R (snd e) (snd e')) d d' -> pv_rel R (PDict d) (PDict d').

Lemma key_filters_len (lo hi : list K) L k : List.length lo = L -> List.length hi = L -> List.length (key_filters lo hi k) = String.length k /\ Forall (fun f => List.length f = L) (key_filters lo hi k).
Proof.
  intros H1 H2. unfold key_filters. induction k as [|c k [IH1 IH2]]; cbn [list_ascii_of_string map List.length String.length]; [split; [reflexivity|constructor]|].
  split; [congruence|]. constructor; [destruct (Ascii.eqb c "d"); assumption|exact IH2].
Qed.
Lemma words_len n k s : In s (words n k) -> String.length s = n + String.length k.
Proof.
  revert k. induction n as [|n IH]; intros k H; cbn [words] in H.
  - destruct H as [<-|[]]. reflexivity.
  - apply in_app_or in H as [H|H]; apply IH in H; cbn in H; lia.
Qed.
Lemma tdetails_local T lo hi m m' L j nax x nax' (x' : tensor K) : 2 <= L -> List.length nax = tdim T -> List.length nax' = tdim T -> good_axes (rank x) nax -> good_axes (rank x') nax' ->
  List.length lo = L -> List.length hi = L -> 1 <= j ->
  pv_rel (fun y y' => same_inside L j nax x y nax' x' y') (tdetails T lo hi m nax j x) (tdetails T lo hi m' nax' j x').
Proof.
  intros HL Hn Hn' Hg Hg' H1 H2 Hj.
  assert (G : forall fs, List.length fs = tdim T -> Forall (fun f : list K => List.length f = L) fs -> same_inside L j nax x (detail lo fs m nax j x) nax' x' (detail lo fs m' nax' j x')).
  { intros fs Hf Hfs. apply detail_local; auto; congruence. }
  assert (GK : forall k, String.length k = tdim T -> same_inside L j nax x (detail lo (key_filters lo hi k) m nax j x) nax' x' (detail lo (key_filters lo hi k) m' nax' j x')).
  { intros k Hk. destruct (key_filters_len lo hi L k H1 H2) as [A B]. apply G; [congruence|exact B]. }
  assert (GD : forall ks : list string, Forall (fun k => String.length k = tdim T) ks ->
    Forall2 (fun e e' : string * tensor K => fst e = fst e' /\ same_inside L j nax x (snd e) nax' x' (snd e'))
      (map (fun k => (k, detail lo (key_filters lo hi k) m nax j x)) ks) (map (fun k => (k, detail lo (key_filters lo hi k) m' nax' j x')) ks)).
  { intros ks Hk. induction Hk as [|k ks Hk Hks IH]; cbn [map]; constructor; [split; [reflexivity|apply GK; exact Hk]|exact IH]. }
  assert (GW : forall n, n = tdim T -> Forall (fun k => String.length k = tdim T) (detail_keys n)).
  { intros n ->. apply Forall_forall. intros k Hk. unfold detail_keys in Hk. assert (In k (words (tdim T) EmptyString)) as Hw by (destruct (words (tdim T) EmptyString); [destruct Hk|right; exact Hk]).
    apply words_len in Hw. cbn in Hw. lia. }
  destruct T; cbn [tdetails tdim] in *.
  - constructor. apply G; [reflexivity|repeat constructor; assumption].
  - constructor. repeat (apply Forall2_cons; [apply G; [reflexivity|repeat constructor; assumption]|]). apply Forall2_nil.
  - constructor. apply GD. repeat (apply Forall_cons; [reflexivity|]). apply Forall_nil.
  - constructor. unfold detailsN. rewrite Hn, Hn'. apply GD. apply GW. reflexivity.
  - constructor. unfold detailsN. rewrite Hn, Hn'. apply GD. apply GW. reflexivity.
Qed.
Lemma item_detail T lo hi m nax J x j : 1 <= j <= J -> nth (J + 1 - j) (pc_items (tspec T lo hi m nax J x)) POther = tdetails T lo hi m nax j x.
Proof.
  intros Hj. unfold tspec. cbn [pc_items]. replace (J + 1 - j) with (S (J - j)) by lia. cbn [nth].
  rewrite (nth_indep _ _ (tdetails T lo hi m nax 0 x)) by (rewrite map_length, rev_length, seq_length; lia).
  rewrite (map_nth (fun j => tdetails T lo hi m nax j x)). f_equal. rewrite rev_nth by (rewrite seq_length; lia). rewrite seq_length, seq_nth by lia. lia.
Qed.
(** ** C68: wherever two signals agree on the window of a coefficient (up to a shift by a multiple of 2^j), the coefficients
    of level j agree (up to that multiple), whatever the modes, the sizes, the remaining axes and the values elsewhere *)
Theorem C68_local T x x' w m m' L level level' c c' : wf x -> wf x' ->
  List.length (dec_lo w) = L -> List.length (dec_hi w) = L -> 2 <= L -> Nat.even L = true ->
  (is3 T = true -> 2 <= List.length (pc_items c) /\ 2 <= List.length (pc_items c')) ->
  (isfs T = true -> (level = None -> ~ In 0 (shp x)) /\ (level' = None -> ~ In 0 (shp x'))) ->
  analyse T x w (Some (mode_name m)) level = Ok c -> analyse T x' w (Some (mode_name m')) level' = Ok c' ->
  exists axes, hint_axes (thint T) (tdim T) = Some axes /\
  let nax := map (norm_axis (rank x)) axes in let nax' := map (norm_axis (rank x')) axes in
  let J := List.length (pc_items c) - 1 in let J' := List.length (pc_items c') - 1 in
  (forall j, 1 <= j <= J -> j <= J' ->
     pv_rel (fun y y' => same_inside L j nax x y nax' x' y') (nth (J + 1 - j) (pc_items c) POther) (nth (J' + 1 - j) (pc_items c') POther)) /\
  (J = J' -> pv_rel (fun y y' => same_inside L J nax x y nax' x' y') (nth 0 (pc_items c) POther) (nth 0 (pc_items c') POther)).
Proof.
  intros Hw Hw' H1 H2 HL He H3 Hfs E E'.
  edestruct (analyse_inv T x w m L level) with (8 := E) as (_ & axes & Hh & Hla & Hax & HJ); try eassumption.
  { intros Q. left. apply H3. exact Q. } { intros Q. apply (Hfs Q). }
  edestruct (analyse_inv T x' w m' L level') with (8 := E') as (_ & axes' & Hh' & Hla' & Hax' & HJ'); try eassumption.
  { intros Q. left. apply H3. exact Q. } { intros Q. apply (Hfs Q). }
  rewrite Hh in Hh'. injection Hh' as <-. exists axes. split; [exact Hh|]. cbv zeta in *.
  destruct HJ as (_ & _ & _ & Hc). destruct HJ' as (_ & _ & _ & Hc'). pose proof (good_axes_ok _ _ Hax) as Hg. pose proof (good_axes_ok _ _ Hax') as Hg'.
  set (nax := map (norm_axis (rank x)) axes) in *. set (nax' := map (norm_axis (rank x')) axes) in *.
  set (J := num_levels level L _) in *. set (J' := num_levels level' L _) in *.
  assert (LJ : List.length (pc_items c) - 1 = J) by (rewrite Hc; unfold tspec; cbn [pc_items List.length]; rewrite map_length, rev_length, seq_length; lia).
  assert (LJ' : List.length (pc_items c') - 1 = J') by (rewrite Hc'; unfold tspec; cbn [pc_items List.length]; rewrite map_length, rev_length, seq_length; lia).
  rewrite LJ, LJ'. assert (Hn : List.length nax = tdim T) by (unfold nax; rewrite map_length; exact Hla). assert (Hn' : List.length nax' = tdim T) by (unfold nax'; rewrite map_length; exact Hla).
  split.
  - intros j Hj Hj'. rewrite Hc, Hc', !item_detail by lia. apply tdetails_local; auto. lia.
  - intros EJ. rewrite Hc, Hc'. unfold tspec. cbn [pc_items nth]. rewrite <- EJ. constructor. apply approx_local; auto. congruence.
Qed.
(** the 1d case in elementary terms: the detail coefficients of two signals under any two modes *)
Theorem C68_wavedec_1d (n n' : nat) (x x' : tensor K) w m m' L level level' cs cs' : wf x -> wf x' -> shp x = [n] -> shp x' = [n'] ->
  List.length (dec_lo w) = L -> List.length (dec_hi w) = L -> 2 <= L -> Nat.even L = true ->
  wavedec x w (Some (mode_name m)) level (-1) = Ok (mkPC true (map PT cs)) ->
  wavedec x' w (Some (mode_name m')) level' (-1) = Ok (mkPC true (map PT cs')) ->
  forall j k s, 1 <= j <= List.length cs - 1 -> j <= List.length cs' - 1 ->
    (2 ^ j - 1) * (L - 2) <= 2 ^ j * k -> 2 ^ j * (k + 1) <= n -> 2 ^ j * (k + s + 1) <= n' ->
    (forall p, 2 ^ j * k <= p + (2 ^ j - 1) * (L - 2) -> p < 2 ^ j * (k + 1) -> get x [p] = get x' [p + 2 ^ j * s]) ->
    get (nth (List.length cs - j) cs x) [k] = get (nth (List.length cs' - j) cs' x) [k + s].
Proof.
  intros Hw Hw' S S' H1 H2 HL He E E' j k s Hj Hj' A B B' Hp.
  destruct (C68_local (Twavedec (-1)) x x' w m m' L level level' _ _ Hw Hw' H1 H2 HL He ltac:(discriminate) ltac:(discriminate) E E') as (axes & Hh & Hl).
  cbn in Hh. injection Hh as <-. cbv zeta in Hl. destruct Hl as [Hl _]. cbn [pc_items] in Hl. rewrite !map_length in Hl. specialize (Hl j Hj Hj').
  assert (Hr : rank x = 1) by (unfold rank; rewrite S; reflexivity). assert (Hr' : rank x' = 1) by (unfold rank; rewrite S'; reflexivity).
  replace (List.length cs - 1 + 1 - j) with (List.length cs - j) in Hl by lia. replace (List.length cs' - 1 + 1 - j) with (List.length cs' - j) in Hl by lia.
  rewrite (nth_indep _ _ (PT x)) in Hl by (rewrite map_length; lia). rewrite (nth_indep (map PT cs') _ (PT x)) in Hl by (rewrite map_length; lia).
  rewrite !(map_nth (@PT K)) in Hl. inversion Hl as [t t' Hs| |]; subst. clear Hl. rewrite Hr, Hr' in Hs. change (map (norm_axis 1) [(-1)%Z]) with [0] in Hs.
  specialize (Hs [k] [s] [0] [0] eq_refl). rewrite S, S' in Hs. cbn [gather map nth upds updn shifted map2] in Hs. replace (k + 1 * s) with (k + s) in Hs by lia.
  destruct Hs as (_ & _ & Hs); [split; [reflexivity|intros d Hd Hn; exfalso; apply Hn; cbn in Hd; left; lia]|split; [reflexivity|intros d Hd Hn; exfalso; apply Hn; cbn in Hd; left; lia]| | | |exact Hs].
  - repeat constructor; lia.
  - repeat constructor; nia.
  - intros ps H. inversion H as [|? p ? ps' Hkp H']; subst. inversion H'; subst. cbn. apply Hp; lia.
Qed.
End P.

(** ** examples over the integers: a db2-length bank, lengths 16 and 22, zero against symmetric padding, the signal moved by 4 samples, level 2 *)
Definition exS : tensor ZK := mkT (K := ZK) f32 [16] (map (fun i => Z.of_nat ((i * i + 3 * i) mod 17)) (seq 0 16)).
Definition exS' : tensor ZK := mkT (K := ZK) f32 [22] (map (fun i => if Nat.ltb i 4 then 5%Z else if Nat.ltb i 20 then nth (i - 4) (dat exS) 0%Z else 9%Z) (seq 0 22)).
Definition tensors (r : result (pycoeffs ZK)) : list (tensor ZK) := match r with Ok c => map (fun v => match v with PT t => t | _ => exS end) (pc_items c) | _ => [] end.
Theorem ex_C68 : exists cs cs', wavedec exS exW4 (Some (mode_name Mzero)) (Some 2%Z) (-1) = Ok (mkPC true (map PT cs)) /\
  wavedec exS' exW4 (Some (mode_name Msymmetric)) (Some 2%Z) (-1) = Ok (mkPC true (map PT cs')) /\
  wf exS /\ wf exS' /\ List.length cs = 3 /\ List.length cs' = 3 /\
  get (nth 1 cs exS) [2] = get (nth 1 cs' exS) [3] /\ get (nth 1 cs exS) [2] <> 0%Z /\
  (2 ^ 2 - 1) * (4 - 2) <= 2 ^ 2 * 2 /\ 2 ^ 2 * (2 + 1) <= 16 /\ 2 ^ 2 * (2 + 1 + 1) <= 22 /\
  (forall p, 2 ^ 2 * 2 <= p + (2 ^ 2 - 1) * (4 - 2) -> p < 2 ^ 2 * (2 + 1) -> get exS [p] = get exS' [p + 2 ^ 2 * 1]) /\
  get (nth 1 cs exS) [0] <> get (nth 1 cs' exS) [1].
Proof.
  exists (tensors (wavedec exS exW4 (Some (mode_name Mzero)) (Some 2%Z) (-1))), (tensors (wavedec exS' exW4 (Some (mode_name Msymmetric)) (Some 2%Z) (-1))).
  split; [vm_compute; reflexivity|]. split; [vm_compute; reflexivity|].
  repeat split; try (vm_compute; congruence); try (cbn; lia).
  intros p H1 H2. cbn in H1, H2. assert (p = 2 \/ p = 3 \/ p = 4 \/ p = 5 \/ p = 6 \/ p = 7 \/ p = 8 \/ p = 9 \/ p = 10 \/ p = 11) as Hp by lia.
  repeat destruct Hp as [->|Hp]; try subst p; vm_compute; reflexivity.
Qed.
