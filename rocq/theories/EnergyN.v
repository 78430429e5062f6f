(** C64: the boundary-wavelet transforms in two and three dimensions preserve the energy of the data. *)
From Coq Require Import List Arith ZArith Lia Bool String Ring.
From Coq Require Import ZifyNat ZifyBool.
From Verif Require Import Base Sums Tensor TensorFacts Util Perm Plumb Accept Spec Conv1 Conv2 PadFacts CoreFacts AnalysisInv Synthesis Filters Wave1 Wave1Inv Rec1 RecN Sep SepFacts Lin AxesPerm Sparse SparseFacts SpecMat SpecMatN SparseMM LinAlg PropsSparse PropsOrth GramSchmidt Mat1 MatN MatOrth Boundary Boundary2 MatPre Mat1Facts Mat1Call Tags PropsMat1 MatNFacts MatNLoop MatNSep MatNNon MatNCall PropsMatN PropsMatN2 PropsMatNon.
Import ListNotations.
Ltac Zify.zify_post_hook ::= Z.div_mod_to_equations.
Local Arguments Nat.div : simpl never.
Local Arguments Nat.modulo : simpl never.

(** all bands of N axes: one choice per axis *)
Fixpoint all_bands (N : nat) : list (list bool) := match N with O => [[]] | S N' => map (cons false) (all_bands N') ++ map (cons true) (all_bands N') end.

Section EN.
Context {K : CRing}.
Add Ring Kring : (cr_th K).
Local Open Scope K_scope.
Implicit Types (t u x : tensor K) (w : wavelet K).

Lemma sumI_axes nax : forall ns (s : list nat) (f : list nat -> K), NoDup nax -> (forall d, In d nax -> (d < List.length s)%nat) -> List.length ns = List.length nax ->
  sumI (upds nax ns s) f = sumI (upds nax (map (fun _ => 1%nat) nax) s) (fun idx => sumI ns (fun is => f (upds nax is idx))).
Proof.
  induction nax as [|a nax IH]; intros ns s f Hn Hin Hl; (destruct ns as [|n ns]; [|try discriminate]); try discriminate; cbn [upds map sumI].
  - reflexivity.
  - inversion Hn as [|? ? Hna Hn']; subst. cbn [List.length] in Hl.
    rewrite sumI_axis by (rewrite upds_length; apply Hin; left; reflexivity).
    rewrite <- !upds_updn_notin by exact Hna. rewrite IH.
    + apply sumI_ext. intros idx _. rewrite sumI_sumf_swap. reflexivity.
    + exact Hn'.
    + intros d Hd. rewrite updn_length. apply Hin. right. exact Hd.
    + lia.
Qed.
Lemma energy_axes x nax : good_axes (rank x) nax ->
  energy x = sumI (upds nax (map (fun _ => 1%nat) nax) (shp x)) (fun idx => sumI (gather nax 0%nat (shp x)) (fun is => get x (upds nax is idx) * get x (upds nax is idx))).
Proof.
  intros [Hn Hin]. unfold energy. rewrite <- (upds_gather nax (shp x)) at 1. apply (sumI_axes nax _ (shp x) (fun i => get x i * get x i)); auto. apply gather_length.
Qed.

(** Parseval for matrices whose rows and columns are multi-indices *)
Definition orth_cols (s : list nat) (M : list nat -> list nat -> K) : Prop :=
  forall js js', valid js s -> valid js' s -> sumI s (fun is => M is js * M is js') = if list_eqb Nat.eqb js js' then 1 else 0.
Lemma list_eqb_spec (l l' : list nat) : list_eqb Nat.eqb l l' = true <-> l = l'.
Proof.
  revert l'. induction l as [|a l IH]; intros [|b l']; cbn; split; intros H; try discriminate; try reflexivity.
  - apply andb_true_iff in H as [H1 H2]. apply Nat.eqb_eq in H1. apply IH in H2. congruence.
  - injection H as -> ->. rewrite Nat.eqb_refl. apply IH. reflexivity.
Qed.
Lemma parsevalI s (M : list nat -> list nat -> K) (v : list nat -> K) : orth_cols s M ->
  sumI s (fun is => sumI s (fun js => M is js * v js) * sumI s (fun js => M is js * v js)) = sumI s (fun js => v js * v js).
Proof.
  intros H.
  transitivity (sumI s (fun is => sumI s (fun j => sumI s (fun k => (v j * v k) * (M is j * M is k))))).
  { apply sumI_ext. intros is _. rewrite <- sumI_mul_l. apply sumI_ext. intros j _.
    transitivity ((M is j * v j) * sumI s (fun js => M is js * v js)); [ring|]. rewrite <- sumI_mul_l. apply sumI_ext. intros k _. ring. }
  rewrite sumI_swap. apply sumI_ext. intros j Hj. rewrite sumI_swap. rewrite (sumI_single s j); [|exact Hj|].
  - rewrite sumI_mul_l, (H j j Hj Hj). rewrite (proj2 (list_eqb_spec j j) eq_refl). ring.
  - intros k Hk Hne. rewrite sumI_mul_l, (H j k Hj Hk). destruct (list_eqb Nat.eqb j k) eqn:E; [apply list_eqb_spec in E; congruence|ring].
Qed.

(** the rows of all bands are all rows *)
Lemma sum_bands s : Forall (fun n => (n mod 2 = 0)%nat) s -> forall (F : list nat -> K),
  sumL (all_bands (List.length s)) (fun k => sumI (map (fun n => n / 2)%nat s) (fun ks => F (band_rows k s ks))) = sumI s F.
Proof.
  induction s as [|n s IH]; intros He F; cbn [List.length all_bands map sumI].
  - cbn. ring.
  - inversion He as [|? ? Hn He']; subst. rewrite sumL_app, !sumL_map. cbn [band_rows].
    rewrite !sumL_sumf_swap. rewrite (sumf_ext (n / 2) _ (fun i => sumI s (fun is => F (i :: is)))) by (intros i _; apply (IH He' (fun is => F (i :: is)))).
    rewrite (sumf_ext (n / 2) (fun j => sumL (all_bands (List.length s)) _) (fun i => sumI s (fun is => F ((n / 2 + i)%nat :: is)))) by (intros i _; apply (IH He' (fun is => F ((n / 2 + i)%nat :: is)))).
    rewrite <- sumf_app. f_equal. lia.
Qed.

Lemma energy_band (M : list nat -> list nat -> list nat -> K) m nax k x : wf x -> good_axes (rank x) nax ->
  let s := gather nax 0%nat (shp x) in Forall (fun n => (n mod 2 = 0)%nat) s ->
  energy (bwn_band M m nax k x) = sumI (upds nax (map (fun _ => 1%nat) nax) (shp x)) (fun idx => sumI (map (fun n => n / 2)%nat s) (fun ks =>
    let v := fun is => sumI s (fun js => M s is js * get x (upds nax js idx)) in v (band_rows k s ks) * v (band_rows k s ks))).
Proof.
  intros Hw Hg s He. assert (Eu : map even_up s = s) by (apply map_even_up_id, He).
  assert (Eh : map (fun n => even_up n / 2)%nat s = map (fun n => n / 2)%nat s) by (rewrite map_half_even, Eu; reflexivity).
  unfold energy. unfold bwn_band. rewrite shp_along. fold s. rewrite Eh. destruct Hg as [Hn Hin].
  assert (Hl : List.length (map (fun n => n / 2)%nat s) = List.length nax) by (unfold s; rewrite map_length; apply gather_length).
  rewrite (sumI_axes nax _ (shp x)) by auto.
  apply sumI_ext. intros idx Hv. apply sumI_ext. intros ks Hk. cbv zeta.
  assert (E : get (along_axes (map (fun n => even_up n / 2)%nat) (bwn_op M m k) nax x) (upds nax ks idx) = sumI s (fun js => M s (band_rows k s ks) js * get x (upds nax js idx))).
  { assert (Hlk : List.length ks = List.length nax) by (rewrite (valid_length _ _ Hk); exact Hl).
    assert (Hli : List.length idx = List.length (shp x)) by (rewrite (valid_length _ _ Hv); apply upds_length).
    unfold along_axes. fold s. rewrite Eh. rewrite get_make.
    - unfold bwn_op. rewrite Eu. rewrite gather_upds; [|exact Hn|exact Hlk|intros d Hd; rewrite Hli; apply Hin; exact Hd].
      apply sumI_ext. intros js Hj. f_equal. rewrite ext_get_id by exact Hj. f_equal. apply upds_upds; [exact Hn|]. rewrite (valid_length _ _ Hj). unfold s. rewrite gather_length. congruence.
    - rewrite <- (upds_upds nax (map (fun n => n / 2)%nat s) (map (fun _ => 1%nat) nax)) by (auto; rewrite Hl, map_length; reflexivity).
      apply valid_upds; auto. }
  rewrite E. reflexivity.
Qed.
Lemma energy_level_n (M : list nat -> list nat -> list nat -> K) m nax x : wf x -> good_axes (rank x) nax ->
  let s := gather nax 0%nat (shp x) in Forall (fun n => (n mod 2 = 0)%nat) s -> orth_cols s (M s) ->
  sumL (all_bands (List.length nax)) (fun k => energy (bwn_band M m nax k x)) = energy x.
Proof.
  intros Hw Hg s He Ho.
  rewrite (sumL_ext (all_bands (List.length nax)) _ _ (fun k _ => energy_band M m nax k x Hw Hg He)). fold s.
  rewrite (energy_axes x nax Hg). fold s. rewrite sumL_sumI_swap. apply sumI_ext. intros idx _.
  replace (List.length nax) with (List.length s) by (unfold s; apply gather_length). cbv zeta.
  transitivity (sumI s (fun is => sumI s (fun js => M s is js * get x (upds nax js idx)) * sumI s (fun js => M s is js * get x (upds nax js idx))));
    [apply (sum_bands s He (fun is => sumI s (fun js => M s is js * get x (upds nax js idx)) * sumI s (fun js => M s is js * get x (upds nax js idx))))|].
  apply (parsevalI s (M s) (fun js => get x (upds nax js idx)) Ho).
Qed.

(** several levels; [ds] are the detail bands in any order *)
Lemma energy_iter (M : list nat -> list nat -> list nat -> K) m nax ds L : (0 < List.length nax)%nat ->
  (forall F : list bool -> K, F (repeat false (List.length nax)) + sumL ds F = sumL (all_bands (List.length nax)) F) ->
  (forall s, List.length s = List.length nax -> Forall (fun n => (L <= n)%nat) s -> Forall (fun n => (n mod 2 = 0)%nat) s -> orth_cols s (M s)) ->
  forall J x, wf x -> good_axes (rank x) nax -> Forall (Nat.divide (2 ^ J)) (gather nax 0%nat (shp x)) -> fitsN L J (gather nax 0%nat (shp x)) ->
  energy (bwn_approx M m nax J x) + sumL (rev (seq 0 J)) (fun j => sumL ds (fun k => energy (bwn_band M m nax k (bwn_approx M m nax j x)))) = energy x.
Proof.
  intros HN Hds HM. induction J as [|J IH]; intros x Hw Hg Hd Hf.
  - cbn. ring.
  - destruct Hf as [Hn Hf]. set (s := gather nax 0%nat (shp x)) in *.
    assert (He : Forall (fun n => (n mod 2 = 0)%nat) s) by (eapply Forall_impl; [|exact Hd]; intros n [q Hq]; cbn [Nat.pow] in Hq; nia).
    set (lo := bwn_band M m nax (repeat false (List.length nax))).
    destruct (band_facts M m nax (repeat false (List.length nax)) x Hw Hg) as (B1 & B2 & _ & _ & B5). fold lo s in B1, B2, B5.
    assert (Es : map half_up s = map (fun n => n / 2)%nat s) by (rewrite <- map_half_up; rewrite (map_even_up_id s He); reflexivity).
    assert (Eind : energy (bwn_approx M m nax J (lo x)) + sumL (rev (seq 0 J)) (fun j => sumL ds (fun k => energy (bwn_band M m nax k (bwn_approx M m nax j (lo x))))) = energy (lo x)).
    { apply IH; [exact B1|rewrite B2; exact Hg| |rewrite B5; exact Hf].
      rewrite B5, Es. rewrite Forall_map. eapply Forall_impl; [|exact Hd]. intros n [q Hq]. exists q. cbn [Nat.pow] in Hq. nia. }
    assert (Hl : List.length s = List.length nax) by apply gather_length.
    rewrite <- (energy_level_n M m nax x Hw Hg He (HM s Hl Hn He)). rewrite <- (Hds (fun k => energy (bwn_band M m nax k x))). fold lo. rewrite <- Eind.
    unfold bwn_approx. fold lo. rewrite iter_r. cbn [seq rev]. rewrite sumL_app. rewrite <- seq_shift, <- map_rev, sumL_map.
    rewrite (sumL_ext (rev (seq 0 J)) (fun j => sumL ds (fun k => energy (bwn_band M m nax k (Nat.iter (S j) lo x)))) (fun j => sumL ds (fun k => energy (bwn_band M m nax k (Nat.iter j lo (lo x)))))) by (intros j _; rewrite iter_r; reflexivity).
    cbn [sumL Nat.iter nat_rect]. ring.
Qed.

(** Kronecker products of orthogonal matrices *)
Lemma orth_tprod (A : nat -> nat -> nat -> K) s : Forall (fun n => orthonormal_rows n n (fun i j => A n j i)) s -> orth_cols s (tprod A s).
Proof.
  induction s as [|n s IH]; intros Ho js js' Hj Hj'.
  - inversion Hj; inversion Hj'; subst. cbn. ring.
  - inversion Ho as [|? ? Hn Ho']; subst. inversion Hj as [|j ? r ? Hlt Hr]; subst. inversion Hj' as [|j' ? r' ? Hlt' Hr']; subst. cbn [sumI tprod list_eqb].
    rewrite (sumf_ext n _ (fun i => (A n i j * A n i j') * (if list_eqb Nat.eqb r r' then 1 else 0))).
    + rewrite sumf_mul_r. specialize (Hn j j' Hlt Hlt'). unfold dot in Hn. rewrite Hn. unfold delta. destruct (Nat.eqb j j'); cbn [andb]; ring.
    + intros i Hi. rewrite <- (IH Ho' r r' Hr Hr'), <- sumI_mul_l. apply sumI_ext. intros is _. ring.
Qed.
(** matrices acting on whole images *)
Lemma sumf_perm n (s t : nat -> nat) (G : nat -> K) : (forall p, (p < n)%nat -> (s p < n)%nat /\ t (s p) = p) -> (forall p, (p < n)%nat -> (t p < n)%nat /\ s (t p) = p) -> sumf n G = sumf n (fun p => G (s p)).
Proof.
  intros H1 H3. rewrite (sumf_ext n (fun p => G (s p)) (fun p => sumf n (fun r => if Nat.eqb r (s p) then G r else 0))).
  2:{ intros p Hp. destruct (H1 p Hp) as [Hs _]. rewrite (sumf_single n (s p)); [rewrite Nat.eqb_refl; reflexivity|exact Hs|]. intros r _ Hr. destruct (Nat.eqb_spec r (s p)); [contradiction|reflexivity]. }
  rewrite sumf_swap. apply sumf_ext. intros r Hr. destruct (H3 r Hr) as [Ht Hst]. rewrite (sumf_single n (t r)); [rewrite Hst, Nat.eqb_refl; reflexivity|exact Ht|].
  intros p Hp Hne. destruct (Nat.eqb_spec r (s p)) as [E|_]; [|reflexivity]. exfalso. apply Hne. destruct (H1 p Hp) as [_ <-]. rewrite E. reflexivity.
Qed.
Lemma sum_image_rows h v (F : nat -> K) : (h mod 2 = 0)%nat -> (v mod 2 = 0)%nat -> sumf (v * h) F = sumf h (fun i => sumf v (fun j => F (rix h v i j))).
Proof.
  intros Hhe Hve. destruct (Nat.eq_dec h 0) as [->|H0]; [rewrite Nat.mul_0_r; reflexivity|].
  rewrite (sumf_perm (v * h)%nat (fun p => rix h v (p mod h) (p / h)) (fun r => cix h (rixi h v r) (rixj h v r)) F).
  - rewrite sumf_grid, sumf_swap. apply sumf_ext. intros i Hi. apply sumf_ext. intros j Hj. f_equal.
    rewrite (Nat.add_comm (j * h) i), Nat.mod_add, Nat.div_add by lia. rewrite Nat.mod_small, Nat.div_small by exact Hi. reflexivity.
  - intros p Hp. assert (Hq : (p mod h < h)%nat) by (apply Nat.mod_upper_bound; lia). assert (Hd : (p / h < v)%nat) by (apply Nat.div_lt_upper_bound; lia).
    pose proof (rix_lt h v _ _ Hhe Hve Hq Hd) as Hl. split; [exact Hl|]. destruct (rix_inv h v _ Hhe Hve Hl) as (I1 & I2 & I3).
    apply rix_inj in I3 as [-> ->]; auto. unfold cix. rewrite (Nat.div_mod p h) at 3 by lia. lia.
  - intros r Hr. destruct (rix_inv h v r Hhe Hve Hr) as (I1 & I2 & I3). split; [unfold cix; nia|]. unfold cix. rewrite (Nat.add_comm _ (rixi h v r)), Nat.mod_add, Nat.div_add by lia. rewrite Nat.mod_small, Nat.div_small by exact I1. exact I3.
Qed.
Lemma orth_image (A : nat -> nat -> nat -> nat -> K) h v : (h mod 2 = 0)%nat -> (v mod 2 = 0)%nat -> orthonormal_rows (v * h) (v * h) (fun i j => A h v j i) ->
  orth_cols [h; v] (image_matrix A [h; v]).
Proof.
  intros Hh Hv Ho js js' Hj Hj'.
  inversion Hj as [|k ? r ? Hk Hr]; subst. inversion Hr as [|l ? r2 ? Hl Hr2]; subst. inversion Hr2; subst.
  inversion Hj' as [|k' ? r' ? Hk' Hr']; subst. inversion Hr' as [|l' ? r2' ? Hl' Hr2']; subst. inversion Hr2'; subst.
  cbn [sumI image_matrix]. rewrite (sumf_ext h _ (fun i => sumf v (fun j => (fun r => A h v r (image_col h k l) * A h v r (image_col h k' l')) (rix h v i j)))).
  - rewrite <- (sum_image_rows h v (fun r => A h v r (image_col h k l) * A h v r (image_col h k' l')) Hh Hv). specialize (Ho (image_col h k l) (image_col h k' l')). unfold dot in Ho. rewrite Ho by (unfold image_col; nia).
    unfold delta. cbn [list_eqb]. destruct (Nat.eqb_spec (image_col h k l) (image_col h k' l')) as [E|E].
    + assert (l = l') by (unfold image_col in E; nia). subst. assert (k = k') by (unfold image_col in E; lia). subst. rewrite !Nat.eqb_refl. reflexivity.
    + destruct (Nat.eqb_spec k k') as [->|]; [|reflexivity]. destruct (Nat.eqb_spec l l') as [->|]; [congruence|reflexivity].
  - intros i Hi. apply sumf_ext. intros j Hjv. rewrite image_row_rix. reflexivity.
Qed.

(** the containers *)
Lemma sumL_flat_map {A B : Type} (f : A -> list B) (g : B -> K) l : sumL (flat_map f l) g = sumL l (fun a => sumL (f a) g).
Proof. induction l as [|a l IH]; cbn [flat_map sumL]; [reflexivity|]. rewrite sumL_app, IH. reflexivity. Qed.
Lemma energies2 M m nax ks J x : energies (pc_tensors (bwn2_coeffs M m nax ks J x)) =
  energy (bwn_approx M m nax J x) + sumL (rev (seq 0 J)) (fun j => sumL ks (fun k => energy (bwn_band M m nax k (bwn_approx M m nax j x)))).
Proof.
  unfold energies, pc_tensors, bwn2_coeffs. cbn [pc_items flat_map pv_tensors app sumL]. f_equal. rewrite sumL_flat_map, sumL_map. apply sumL_ext. intros j _. cbn [pv_tensors]. apply sumL_map.
Qed.
Lemma energies3 M m nax ks J x : energies (pc_tensors (bwn3_coeffs M m nax ks J x)) =
  energy (bwn_approx M m nax J x) + sumL (rev (seq 0 J)) (fun j => sumL ks (fun k => energy (bwn_band M m nax k (bwn_approx M m nax j x)))).
Proof.
  unfold energies, pc_tensors, bwn3_coeffs. cbn [pc_items flat_map pv_tensors app sumL]. f_equal. rewrite sumL_flat_map, sumL_map. apply sumL_ext. intros j _. cbn [pv_tensors]. rewrite map_map, sumL_map. reflexivity.
Qed.
End EN.

(** * The theorems *)
Section EC.
Context {K : CRing}.
Add Ring Kring2 : (cr_th K).
Local Open Scope K_scope.
Implicit Types (t u x : tensor K) (w : wavelet K).
Variable LA : linalg K.
Hypothesis HD : domain K.
Hypothesis HR : formally_real K.
Variables (w : wavelet K) (L : nat) (method : string) (m : mode).
Hypothesis HLA : la_ok LA method.
Hypothesis B : orthogonal_bank L (dec_lo w) (dec_hi w) (rec_lo w) (rec_hi w).
Hypothesis HI : boundary_independent L (dec_lo w) (dec_hi w).
Let odd := Some (mode_name m).

Lemma nax_len level axes N o sep x : new_mwavedecn N w level (AxSeq axes) method odd sep = Ok o -> List.length (map (norm_axis (rank x)) axes) = N.
Proof. intros Ho. apply new_mwn_inv in Ho as [Hl _]. rewrite map_length. exact Hl. Qed.
(** MatrixWavedec2, separable=True *)
Theorem C64_energy_2d level axes o x o' c : wf x -> new_mwavedecn 2 w level (AxSeq axes) method odd true = Ok o -> mw2_call LA o x = (o', Ok c) ->
  Forall (Nat.divide (2 ^ (List.length (pc_items c) - 1))) (gather (map (norm_axis (rank x)) axes) 0%nat (shp x)) ->
  energies (pc_tensors c) = energy x.
Proof using All.
  intros Hw Ho Hc Hd. pose proof (nax_len level axes 2 o true x Ho) as Hn.
  destruct (C43_coefficients LA HD HR w L method m HLA B HI level axes o x o' c Hw Ho Hc) as (lev & A & _ & HA & ->).
  apply new_mwn_inv in Ho as [Hl ->]. destruct (mw2_call_inv LA (mkMWN w level axes method odd true None [] [] false []) o' axes x _ Hw eq_refl Hl Hc) as (_ & Hax & _).
  set (nax := map (norm_axis (rank x)) axes) in *. set (s := gather nax 0%nat (shp x)) in *. set (J := bwn_levels (Z.to_nat lev) L s) in *.
  rewrite energies2. apply (energy_iter _ m nax [bLH; bHL; bHH] L).
  - lia.
  - intros F. rewrite Hn. unfold bLH, bHL, bHH, bands3. cbn. ring.
  - intros s' _ H1 H2. apply orth_tprod. rewrite Forall_forall in *. intros n Hin. apply HA; auto.
  - exact Hw.
  - apply good_axes_ok, Hax.
  - unfold bwn2_coeffs in Hd. cbn [pc_items List.length] in Hd. rewrite map_length, rev_length, seq_length in Hd. rewrite Nat.sub_succ, Nat.sub_0_r in Hd. exact Hd.
  - apply fits_levels_n.
Qed.
(** MatrixWavedec2, separable=False *)
Theorem C64_energy_2d_nonseparable level axes o x o' c : wf x -> new_mwavedecn 2 w level (AxSeq axes) method odd false = Ok o -> mw2_call LA o x = (o', Ok c) ->
  Forall (Nat.divide (2 ^ (List.length (pc_items c) - 1))) (gather (map (norm_axis (rank x)) axes) 0%nat (shp x)) ->
  energies (pc_tensors c) = energy x.
Proof using All.
  intros Hw Ho Hc Hd. pose proof (nax_len level axes 2 o false x Ho) as Hn.
  destruct (C43_nonseparable_coefficients LA HD HR w L method HLA B HI m level axes o x o' c Hw Ho Hc) as (lev & A & _ & HA & ->).
  apply new_mwn_inv in Ho as [Hl ->]. destruct (mw2_call_inv LA (mkMWN w level axes method odd false None [] [] false []) o' axes x _ Hw eq_refl Hl Hc) as (_ & Hax & _).
  set (nax := map (norm_axis (rank x)) axes) in *. set (s := gather nax 0%nat (shp x)) in *. set (J := bwn_levels (Z.to_nat lev) L s) in *.
  rewrite energies2. apply (energy_iter _ m nax [bHL; bLH; bHH] L).
  - lia.
  - intros F. rewrite Hn. unfold bLH, bHL, bHH, bands3. cbn. ring.
  - intros s' Hs H1 H2. rewrite Hn in Hs. destruct s' as [|h [|v [|? ?]]]; try discriminate. inversion H1 as [|? ? Hh H1']; subst. inversion H1' as [|? ? Hv _]; subst.
    inversion H2 as [|? ? Eh H2']; subst. inversion H2' as [|? ? Ev _]; subst. apply orth_image; auto. apply (HA h v); assumption.
  - exact Hw.
  - apply good_axes_ok, Hax.
  - unfold bwn2_coeffs in Hd. cbn [pc_items List.length] in Hd. rewrite map_length, rev_length, seq_length in Hd. rewrite Nat.sub_succ, Nat.sub_0_r in Hd. exact Hd.
  - apply fits_levels_n.
Qed.
(** MatrixWavedec3 *)
Theorem C64_energy_3d level axes o x o' c : wf x -> new_mwavedecn 3 w level (AxSeq axes) method odd true = Ok o -> mw3_call LA o x = (o', Ok c) ->
  Forall (Nat.divide (2 ^ (List.length (pc_items c) - 1))) (gather (map (norm_axis (rank x)) axes) 0%nat (shp x)) ->
  energies (pc_tensors c) = energy x.
Proof using All.
  intros Hw Ho Hc Hd. pose proof (nax_len level axes 3 o true x Ho) as Hn.
  destruct (C45_coefficients LA HD HR w L method m HLA B HI level axes o x o' c Hw Ho Hc) as (lev & A & _ & HA & ->).
  apply new_mwn_inv in Ho as [Hl ->]. destruct (mw3_call_inv LA (mkMWN w level axes method odd true None [] [] false []) o' axes x _ Hw eq_refl Hl Hc) as (_ & Hax & _).
  set (nax := map (norm_axis (rank x)) axes) in *. set (s := gather nax 0%nat (shp x)) in *. set (J := bwn_levels (Z.to_nat lev) L s) in *.
  rewrite energies3. apply (energy_iter _ m nax bands3 L).
  - lia.
  - intros F. rewrite Hn. unfold bLH, bHL, bHH, bands3. cbn. ring.
  - intros s' _ H1 H2. apply orth_tprod. rewrite Forall_forall in *. intros n Hin. apply HA; auto.
  - exact Hw.
  - apply good_axes_ok, Hax.
  - unfold bwn3_coeffs in Hd. cbn [pc_items List.length] in Hd. rewrite map_length, rev_length, seq_length in Hd. rewrite Nat.sub_succ, Nat.sub_0_r in Hd. exact Hd.
  - apply fits_levels_n.
Qed.
End EC.
