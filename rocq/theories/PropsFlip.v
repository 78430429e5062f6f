(** C83: time reversal.  On axes whose length is even at every level the analysis commutes with [torch.flip]
    when the filters are time-reversed. *)
From Coq Require Import List Arith ZArith Lia Bool Ascii String Ring.
From Coq Require Import ZifyNat ZifyBool.
From Verif Require Import Base Sums Tensor TensorFacts Util Perm Plumb Accept Spec Conv1 PadFacts CoreFacts Analysis AnalysisInv PRKernel Synthesis Filters Wave1 Wave1Inv Rec1 Rec1Inv Lin Examples Props1 Conv2 Conv3 Spec2 WaveN RecN Props2 Sep SpecSep SepFacts SepRec SepRec2 SepRec3 PropsSep Unified RecNInv UnifiedRec PropsConst PropsLocal SpecMat PropsMat1 Boundary EnergyN PropsLocalRec Polyphase PropsAdjoint.
Import ListNotations.

Section Flip.
Context {K : CRing}.
Add Ring Kring : (cr_th K).
Implicit Types (x : tensor K) (w : wavelet K).

(** [torch.flip]: every index i along the axes becomes n-1-i *)
Definition flips (s is : list nat) : list nat := map2 (fun n i => n - 1 - i) s is.
Definition tflip (nax : list nat) x : tensor K :=
  tmake (ttag x) (shp x) (fun idx => get x (upds nax (flips (gather nax 0 (shp x)) (gather nax 0 idx)) idx)).

Ltac Zify.zify_post_hook ::= Z.div_mod_to_equations.
Lemma mod_flip (N p z : Z) : (0 < p)%Z -> ((p - 1 - z) mod p)%Z = (p - 1 - z mod p)%Z.
Proof. intros H. pose proof (Z.mod_pos_bound z p H). symmetry. apply (Z.mod_unique_pos _ _ (- (z / p))); [lia|]. pose proof (Z.div_mod z p). nia. Qed.
Ltac Zify.zify_post_hook ::= idtac.
Lemma mod_eq (a b p k : Z) : (0 < p)%Z -> a = (b + k * p)%Z -> (a mod p = b mod p)%Z.
Proof. intros H ->. apply Z.mod_add. lia. Qed.
Lemma ext_idx_flip m n z : extendable m n ->
  ext_idx m n (Z.of_nat n - 1 - z) = option_map (fun i => n - 1 - i) (ext_idx m n z).
Proof.
  intros H. destruct m; cbn [ext_idx option_map extendable] in *; cbv zeta.
  - destruct (Z.leb_spec 0 z), (Z.ltb_spec z (Z.of_nat n)), (Z.leb_spec 0 (Z.of_nat n - 1 - z)), (Z.ltb_spec (Z.of_nat n - 1 - z) (Z.of_nat n)); cbn; try lia; try reflexivity. f_equal. lia.
  - f_equal. lia.
  - f_equal. rewrite (mod_flip 0) by lia. pose proof (Z.mod_pos_bound z (Z.of_nat n) ltac:(lia)). lia.
  - f_equal. set (p := (2 * Z.of_nat n)%Z). pose proof (Z.mod_pos_bound z p ltac:(lia)) as B.
    destruct (Z.ltb_spec (z mod p) (Z.of_nat n)) as [C|C].
    + assert (E : ((Z.of_nat n - 1 - z) mod p = Z.of_nat n - 1 - z mod p)%Z).
      { symmetry. apply (Z.mod_unique_pos _ _ (- (z / p))); [lia|]. pose proof (Z.div_mod z p). nia. }
      rewrite E. destruct (Z.ltb_spec (Z.of_nat n - 1 - z mod p) (Z.of_nat n)); lia.
    + assert (E : ((Z.of_nat n - 1 - z) mod p = Z.of_nat n - 1 - z mod p + p)%Z).
      { symmetry. apply (Z.mod_unique_pos _ _ (- (z / p) - 1)); [lia|]. pose proof (Z.div_mod z p). nia. }
      rewrite E. destruct (Z.ltb_spec (Z.of_nat n - 1 - z mod p + p) (Z.of_nat n)); lia.
  - f_equal. set (p := (2 * Z.of_nat n - 2)%Z). pose proof (Z.mod_pos_bound z p ltac:(lia)) as B.
    destruct (Z.ltb_spec (z mod p) (Z.of_nat n)) as [C|C].
    + assert (E : ((Z.of_nat n - 1 - z) mod p = Z.of_nat n - 1 - z mod p)%Z).
      { symmetry. apply (Z.mod_unique_pos _ _ (- (z / p))); [lia|]. pose proof (Z.div_mod z p). nia. }
      rewrite E. destruct (Z.ltb_spec (Z.of_nat n - 1 - z mod p) (Z.of_nat n)); lia.
    + assert (E : ((Z.of_nat n - 1 - z) mod p = Z.of_nat n - 1 - z mod p + p)%Z).
      { symmetry. apply (Z.mod_unique_pos _ _ (- (z / p) - 1)); [lia|]. pose proof (Z.div_mod z p). nia. }
      rewrite E. destruct (Z.ltb_spec (Z.of_nat n - 1 - z mod p + p) (Z.of_nat n)); lia.
Qed.
Lemma ext_idxs_flip m : forall s zs, Forall (extendable m) s ->
  ext_idxs m s (map2 (fun n z => (Z.of_nat n - 1 - z)%Z) s zs) = option_map (flips s) (ext_idxs m s zs).
Proof.
  induction s as [|n s IH]; intros [|z zs] H; try reflexivity. cbn [map2 ext_idxs].
  rewrite ext_idx_flip by (apply (Forall_inv H)). rewrite IH by (apply (Forall_inv_tail H)).
  destruct (ext_idx m n z), (ext_idxs m s zs); reflexivity.
Qed.

Local Open Scope K_scope.
Lemma sumI_flip : forall s (f : list nat -> K), sumI s f = sumI s (fun is => f (flips s is)).
Proof.
  induction s as [|n s IH]; intros f; [reflexivity|]. cbn [sumI]. rewrite sumf_rev. apply sumf_ext. intros i Hi. rewrite IH. reflexivity.
Qed.
Lemma taps_flip (fs : list (list K)) : forall js, valid js (map (@List.length K) fs) ->
  taps (map (@rev K) fs) (flips (map (@List.length K) fs) js) = taps fs js.
Proof.
  induction fs as [|f fs IH]; intros js Hv; inversion Hv as [|j ? js' ? Hj Hjs]; subst; [reflexivity|]. cbn [map flips map2 taps]. fold (flips (map (@List.length K) fs) js').
  rewrite IH by exact Hjs. f_equal. rewrite rev_nth by lia. f_equal. lia.
Qed.
Lemma map2_4 (L : nat) : forall (s ks js : list nat), List.length ks = List.length s -> List.length js = List.length s ->
  Forall (fun n => Nat.even n = true) s -> Nat.even L = true -> (2 <= L)%nat -> valid ks (map (dwt_len L) s) -> valid js (repeat L (List.length s)) ->
  map2 (fun k j => (2 * Z.of_nat k + 1 - Z.of_nat j)%Z) ks (flips (repeat L (List.length s)) js)
  = map2 (fun n z => (Z.of_nat n - 1 - z)%Z) s (map2 (fun k j => (2 * Z.of_nat k + 1 - Z.of_nat j)%Z) (flips (map (dwt_len L) s) ks) js).
Proof.
  induction s as [|n s IH]; intros [|k ks] [|j js] H1 H2 He HL HL2 Hk Hj; try discriminate; [reflexivity|]. cbn [List.length repeat map flips map2] in *.
  inversion Hk as [|? ? ? ? Hk1 Hk2]; subst. inversion Hj as [|? ? ? ? Hj1 Hj2]; subst. f_equal.
  - unfold dwt_len in *. pose proof (Forall_inv He) as En. cbn in En. apply Nat.even_spec in En. destruct En as [q ->]. apply Nat.even_spec in HL. destruct HL as [l ->].
    replace ((2 * q + 2 * l - 1) / 2)%nat with (q + l - 1)%nat in * by (apply (Nat.div_unique _ 2 _ 1); lia). lia.
  - apply IH; auto. exact (Forall_inv_tail He).
Qed.
Lemma map_len_repeat (fs : list (list K)) L : Forall (fun f => List.length f = L) fs -> map (@List.length K) fs = repeat L (List.length fs).
Proof. induction 1 as [|f fs H HF IH]; [reflexivity|]. cbn. rewrite H, IH. reflexivity. Qed.
Lemma flips_flips s : forall is, valid is s -> flips s (flips s is) = is.
Proof. induction s as [|n s IH]; intros is H; inversion H as [|i ? is' ? Hi His]; subst; [reflexivity|]. cbn [flips map2]. fold (flips s is'). fold (flips s (flips s is')). rewrite IH by exact His. f_equal. lia. Qed.
Lemma flips_valid s : forall is, valid is s -> valid (flips s is) s.
Proof. induction s as [|n s IH]; intros is H; inversion H as [|i ? is' ? Hi His]; subst; [constructor|]. cbn [flips map2]. constructor; [lia|apply IH; exact His]. Qed.
Lemma dwt_op_flip L (fs : list (list K)) m s (X : list nat -> K) ks : Forall (fun f => List.length f = L) fs -> List.length fs = List.length s ->
  Nat.even L = true -> (2 <= L)%nat -> Forall (fun n => Nat.even n = true) s -> Forall (extendable m) s -> valid ks (map (dwt_len L) s) ->
  dwt_op (map (@rev K) fs) m s (fun is => X (flips s is)) ks = dwt_op fs m s X (flips (map (dwt_len L) s) ks).
Proof.
  intros HF Hl HL HL2 Hs He Hk. unfold dwt_op. rewrite map_map. rewrite (map_ext (fun f => List.length (rev f)) (@List.length K)) by (intros f; apply rev_length).
  rewrite (map_len_repeat fs L HF). rewrite sumI_flip. apply sumI_ext. intros js Hjs. rewrite <- (map_len_repeat fs L HF). rewrite taps_flip by (rewrite (map_len_repeat fs L HF); exact Hjs). f_equal.
  rewrite (map_len_repeat fs L HF). rewrite Hl in *. pose proof (valid_length _ _ Hk) as Lk. rewrite map_length in Lk. pose proof (valid_length _ _ Hjs) as Lj. rewrite repeat_length in Lj.
  rewrite map2_4 by auto. unfold ext_get. rewrite ext_idxs_flip by exact He.
  set (zs := map2 _ _ js). assert (Lz : List.length zs = List.length s) by (unfold zs, flips; rewrite !map2_length, map_length; lia).
  destruct (ext_idxs m s zs) as [is|] eqn:E; cbn [option_map]; [|reflexivity]. f_equal. apply flips_flips. exact (ext_idxs_valid m s zs is Lz He E).
Qed.

Lemma flips_length s is : List.length (flips s is) = Nat.min (List.length s) (List.length is).
Proof. unfold flips. apply map2_length. Qed.
Lemma wf_tflip nax x : wf (tflip nax x). Proof. apply wf_make. Qed.
Lemma rank_tflip nax x : rank (tflip nax x) = rank x. Proof. reflexivity. Qed.
Lemma get_tflip_at nax x idx is : good_axes (rank x) nax -> fib_ok nax idx (shp x) -> valid is (gather nax 0%nat (shp x)) ->
  get (tflip nax x) (upds nax is idx) = get x (upds nax (flips (gather nax 0%nat (shp x)) is) idx).
Proof.
  intros [Hnd Hin] Hi Hv. assert (Li : List.length is = List.length nax) by (rewrite (valid_length _ _ Hv); apply gather_length).
  assert (Hlt : forall d, In d nax -> (d < List.length idx)%nat) by (intros d Hd; destruct Hi as [-> _]; apply Hin; exact Hd).
  unfold tflip. rewrite get_make by (apply fib_valid; auto). rewrite gather_upds by auto. rewrite upds_upds; [reflexivity|exact Hnd|].
  rewrite flips_length, gather_length. lia.
Qed.
Lemma dwt_flip L (fs : list (list K)) m nax x : good_axes (rank x) nax -> List.length fs = List.length nax -> Forall (fun f => List.length f = L) fs ->
  Nat.even L = true -> (2 <= L)%nat -> Forall (fun n => Nat.even n = true) (gather nax 0%nat (shp x)) -> Forall (extendable m) (gather nax 0%nat (shp x)) ->
  dwt_axes (map (@rev K) fs) m nax (tflip nax x) = tflip nax (dwt_axes fs m nax x).
Proof.
  intros Hg Hl HF HL HL2 Hs He. pose proof Hg as [Hnd Hin].
  assert (Hl' : List.length (map (@rev K) fs) = List.length nax) by (rewrite map_length; exact Hl).
  assert (HF' : Forall (fun f => List.length f = L) (map (@rev K) fs)) by (apply Forall_map; eapply Forall_impl; [|exact HF]; intros f Hf; cbn; rewrite rev_length; exact Hf).
  assert (Hsh : shp (dwt_axes (map (@rev K) fs) m nax (tflip nax x)) = shp (dwt_axes fs m nax x)).
  { rewrite !(shp_dwt L) by auto. reflexivity. }
  apply t_ext; [apply wf_make|apply wf_make|reflexivity|exact Hsh|].
  intros idx Hv. rewrite Hsh, (shp_dwt L) in Hv by auto.
  set (s := gather nax 0%nat (shp x)) in *.
  assert (Ls : List.length (map (dwt_len L) s) = List.length nax) by (rewrite map_length; apply gather_length).
  pose proof (fib_valid_out nax (map (dwt_len L) s) (shp x) idx Hg Ls Hv) as Hi.
  assert (Hks : valid (gather nax 0%nat idx) (map (dwt_len L) s)).
  { rewrite <- (gather_upds nax (map (dwt_len L) s) (shp x) 0%nat Hnd Ls) by (intros d Hd; apply Hin; exact Hd). apply valid_gather_sub; [|exact Hv]. intros d Hd. rewrite upds_length. apply Hin. exact Hd. }
  set (ks := gather nax 0%nat idx) in *.
  replace (get (dwt_axes (map (@rev K) fs) m nax (tflip nax x)) idx) with (get (dwt_axes (map (@rev K) fs) m nax (tflip nax x)) (upds nax ks idx)) by (unfold ks; rewrite upds_gather; reflexivity).
  rewrite (get_dwt_at L) by auto. change (gather nax 0%nat (shp (tflip nax x))) with s.
  transitivity (dwt_op (map (@rev K) fs) m s (fun is => get x (upds nax (flips s is) idx)) ks).
  { apply dwt_op_ext; [rewrite Hl'; symmetry; apply gather_length|exact He|rewrite (valid_length _ _ Hks); apply map_length|]. intros is His. apply get_tflip_at; auto. }
  rewrite (dwt_op_flip L fs m s (fun is => get x (upds nax is idx))) by (auto; unfold s; rewrite gather_length; exact Hl).
  unfold tflip. rewrite get_make by (rewrite (shp_dwt L) by auto; exact Hv). rewrite (dwt_axes_sizes fs m L) by auto. fold ks s.
  rewrite (get_dwt_at L) by (auto; apply flips_valid; exact Hks). reflexivity.
Qed.

(** ** all levels, all containers *)
Definition even_levels (L J : nat) (ns : list nat) : Prop :=
  Forall (fun n => forall j, (j < J)%nat -> Nat.even (len_after L j n) = true) ns.
Lemma rev_repeat {A} (a : A) n : map (fun f => f) (repeat a n) = repeat a n. Proof. apply map_id. Qed.
Lemma map_repeat {A B} (f : A -> B) a n : map f (repeat a n) = repeat (f a) n.
Proof. induction n as [|n IH]; cbn; [reflexivity|]. rewrite IH. reflexivity. Qed.
Lemma Forall_map_of {A B} (P : B -> Prop) (f : A -> B) l : Forall (fun a => P (f a)) l -> Forall P (map f l).
Proof. induction 1; constructor; auto. Qed.
Lemma level_ext m L J j ns : (2 <= L)%nat -> (j < J)%nat -> levels_all m L J ns -> Forall (extendable m) (map (len_after L j) ns).
Proof. intros HL Hj H. apply Forall_map_of. eapply Forall_impl; [|exact H]. intros n Hn. apply (adm_extendable m L); [exact HL|]. apply Hn. exact Hj. Qed.
Lemma level_even L J j ns : (j < J)%nat -> even_levels L J ns -> Forall (fun n => Nat.even n = true) (map (len_after L j) ns).
Proof. intros Hj H. apply Forall_map_of. eapply Forall_impl; [|exact H]. intros n Hn. apply Hn. exact Hj. Qed.
Lemma approx_flip (lo : list K) L m nax J x : good_axes (rank x) nax -> List.length lo = L -> Nat.even L = true -> (2 <= L)%nat ->
  even_levels L J (gather nax 0%nat (shp x)) -> levels_all m L J (gather nax 0%nat (shp x)) ->
  forall j, (j <= J)%nat -> approx (rev lo) m nax j (tflip nax x) = tflip nax (approx lo m nax j x).
Proof.
  intros Hg Hlo HL HL2 He Hlev. induction j as [|j IH]; intros Hj; [reflexivity|]. rewrite !approx_S, IH by lia.
  rewrite <- (map_repeat (@rev K) lo). apply (dwt_flip L); auto.
  - rewrite approx_rank. exact Hg.
  - apply repeat_length.
  - apply Forall_forall. intros f Hf. rewrite (repeat_spec _ _ _ Hf). exact Hlo.
  - rewrite (approx_sizes lo m L) by auto. apply (level_even L J); auto.
  - rewrite (approx_sizes lo m L) by auto. apply (level_ext m L J); auto.
Qed.
Lemma detail_flip (lo : list K) (fs : list (list K)) L m nax J x : good_axes (rank x) nax -> List.length lo = L -> Nat.even L = true -> (2 <= L)%nat ->
  List.length fs = List.length nax -> Forall (fun f => List.length f = L) fs ->
  even_levels L J (gather nax 0%nat (shp x)) -> levels_all m L J (gather nax 0%nat (shp x)) ->
  forall j, (1 <= j <= J)%nat -> detail (rev lo) (map (@rev K) fs) m nax j (tflip nax x) = tflip nax (detail lo fs m nax j x).
Proof.
  intros Hg Hlo HL HL2 Hl HF He Hlev j Hj. unfold detail. rewrite (approx_flip lo L m nax J) by (auto; lia). apply (dwt_flip L); auto.
  - rewrite approx_rank. exact Hg.
  - rewrite (approx_sizes lo m L) by auto. apply (level_even L J); auto. lia.
  - rewrite (approx_sizes lo m L) by auto. apply (level_ext m L J); auto. lia.
Qed.
Lemma key_filters_rev (lo hi : list K) k : key_filters (rev lo) (rev hi) k = map (@rev K) (key_filters lo hi k).
Proof. unfold key_filters. rewrite map_map. apply map_ext. intros c. destruct (Ascii.eqb c "d"%char); reflexivity. Qed.
Lemma key_filters_len (lo hi : list K) L k : List.length lo = L -> List.length hi = L -> Forall (fun f => List.length f = L) (key_filters lo hi k).
Proof. intros H1 H2. apply Forall_map_of. apply Forall_forall. intros c _. destruct (Ascii.eqb c "d"%char); assumption. Qed.
Lemma keys_flip n (lo hi : list K) L m nax J x keys : good_axes (rank x) nax -> List.length lo = L -> List.length hi = L -> Nat.even L = true -> (2 <= L)%nat ->
  even_levels L J (gather nax 0%nat (shp x)) -> levels_all m L J (gather nax 0%nat (shp x)) -> List.length nax = n -> Forall (fun k => List.length (list_ascii_of_string k) = n) keys ->
  forall j, (1 <= j <= J)%nat -> map (fun k => (k, detail (rev lo) (key_filters (rev lo) (rev hi) k) m nax j (tflip nax x))) keys
  = map (fun e => (fst e, tflip nax (snd e))) (map (fun k => (k, detail lo (key_filters lo hi k) m nax j x)) keys).
Proof.
  intros Hg H1 H2 HL HL2 He Hlev Hn Hk j Hj. rewrite map_map. apply map_ext_in. intros k Hin. cbn [fst snd]. f_equal. rewrite key_filters_rev.
  apply (detail_flip _ _ L m nax J); auto; [|apply key_filters_len; assumption].
  rewrite Forall_forall in Hk. unfold key_filters. rewrite map_length, Hk by exact Hin. congruence.
Qed.
Lemma tspec_flip T (lo hi : list K) L m nax J x : good_axes (rank x) nax -> List.length nax = tdim T -> List.length lo = L -> List.length hi = L -> Nat.even L = true -> (2 <= L)%nat ->
  even_levels L J (gather nax 0%nat (shp x)) -> levels_all m L J (gather nax 0%nat (shp x)) ->
  tspec T (rev lo) (rev hi) m nax J (tflip nax x) = pc_map (tflip nax) (tspec T lo hi m nax J x).
Proof.
  intros Hg Hn H1 H2 HL HL2 He Hlev. unfold tspec, pc_map. cbn [pc_is_list pc_items map pv_map]. f_equal. f_equal.
  - f_equal. apply (approx_flip lo L m nax J); auto.
  - rewrite map_map. apply map_ext_in. intros j Hj. apply in_rev, in_seq in Hj.
    assert (Hd : forall fs, List.length fs = List.length nax -> Forall (fun f => List.length f = L) fs -> detail (rev lo) (map (@rev K) fs) m nax j (tflip nax x) = tflip nax (detail lo fs m nax j x)).
    { intros fs Hl HF. apply (detail_flip lo fs L m nax J); auto. lia. }
    destruct T; cbn [tdetails tdim] in *.
    + cbn [pv_map]. f_equal. apply (Hd [hi]); [cbn; congruence|repeat constructor; exact H2].
    + unfold details2. cbn [pv_map map]. rewrite <- (Hd [hi; lo]), <- (Hd [lo; hi]), <- (Hd [hi; hi]) by (cbn; first [congruence|repeat constructor; assumption]). reflexivity.
    + unfold details3. cbn [pv_map]. f_equal. apply (keys_flip 3 lo hi L m nax J); auto; [repeat constructor|lia].
    + unfold detailsN. rewrite Hn. cbn [pv_map]. f_equal. apply (keys_flip 2 lo hi L m nax J); auto; [repeat constructor|lia].
    + unfold detailsN. rewrite Hn. cbn [pv_map]. f_equal. apply (keys_flip 3 lo hi L m nax J); auto; [repeat constructor|lia].
Qed.

(** Reversing the signal along the transformed axes and both analysis filters reverses every coefficient tensor. *)
Theorem C83_flip T x w w' m L level c : wf x ->
  List.length (dec_lo w) = L -> List.length (dec_hi w) = L -> (2 <= L)%nat -> Nat.even L = true ->
  dec_lo w' = rev (dec_lo w) -> dec_hi w' = rev (dec_hi w) ->
  (is3 T = true -> (2 <= List.length (pc_items c))%nat \/ exists z, level = Some z /\ (0 < z)%Z) -> (isfs T = true -> level = None -> ~ In 0%nat (shp x)) ->
  analyse T x w (Some (mode_name m)) level = Ok c ->
  (forall axes, hint_axes (thint T) (tdim T) = Some axes ->
     let ns := gather (map (norm_axis (rank x)) axes) 0%nat (shp x) in even_levels L (num_levels level L ns) ns) ->
  exists axes, hint_axes (thint T) (tdim T) = Some axes /\
    analyse T (tflip (map (norm_axis (rank x)) axes) x) w' (Some (mode_name m)) level = Ok (pc_map (tflip (map (norm_axis (rank x)) axes)) c).
Proof.
  intros Hw H1 H2 HL He E1 E2 H3 Hfs H Hev.
  destruct (analyse_inv T x w m L level c Hw H1 H2 HL He H3 Hfs H) as (Hd & axes & Hh & Hl & Hax & HJ). cbv zeta in HJ. destruct HJ as (H3' & Hfs' & Hlev & Hc).
  exists axes. split; [exact Hh|]. specialize (Hev axes Hh). cbv zeta in Hev. subst c.
  rewrite <- (tspec_flip T _ _ L) by (first [assumption|apply good_axes_ok; exact Hax|rewrite map_length; exact Hl]). rewrite <- E1, <- E2.
  set (nax := map (norm_axis (rank x)) axes) in *. pose proof (analyse_ok T (tflip nax x) w' m L level axes) as G. cbv zeta in G. change (rank (tflip nax x)) with (rank x) in G. change (shp (tflip nax x)) with (shp x) in G. fold nax in G. apply G; auto.
  - apply wf_tflip.
  - rewrite E1, rev_length. exact H1.
  - rewrite E2, rev_length. exact H2.
Qed.
End Flip.
