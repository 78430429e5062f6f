(** C65: the boundary-wavelet transforms are onto: every coefficient container with matching sizes is the transform of
    the signal that the reconstruction returns for it. *)
From Coq Require Import List Arith ZArith Lia Bool String Ring.
From Coq Require Import ZifyNat ZifyBool.
From Verif Require Import Base Sums Tensor TensorFacts Util Perm Plumb Accept Spec Conv1 Conv2 PadFacts CoreFacts AnalysisInv Synthesis Filters Wave1 Wave1Inv Rec1 RecN Sep SepFacts Lin AxesPerm Sparse SparseFacts SpecMat SpecMatN SparseMM LinAlg PropsSparse PropsOrth GramSchmidt Mat1 MatN MatOrth Boundary Boundary2 MatPre Mat1Facts Mat1Call Tags PropsMat1 MatNFacts MatNLoop MatNSep MatNNon MatNCall PropsMatN PropsMatN2 PropsMatNon EnergyN.
Import ListNotations.
Ltac Zify.zify_post_hook ::= Z.div_mod_to_equations.
Local Arguments Nat.div : simpl never.
Local Arguments Nat.modulo : simpl never.

(** band and position inside the band of a row *)
Fixpoint row_band (s is : list nat) : list bool := match s, is with n :: s', i :: is' => Nat.leb (n / 2) i :: row_band s' is' | _, _ => [] end.
Fixpoint row_pos (s is : list nat) : list nat := match s, is with n :: s', i :: is' => (if Nat.leb (n / 2) i then i - n / 2 else i) :: row_pos s' is' | _, _ => [] end.
Lemma row_band_rows s : forall k ks, List.length k = List.length s -> valid ks (map (fun n => n / 2) s) -> row_band s (band_rows k s ks) = k /\ row_pos s (band_rows k s ks) = ks.
Proof.
  induction s as [|n s IH]; intros [|d k] ks Hl Hv; try discriminate; inversion Hv as [|i ? r ? Hi Hr]; subst; cbn [band_rows row_band row_pos]; [auto|].
  destruct (IH k r) as [E1 E2]; [cbn in Hl; lia|exact Hr|]. rewrite E1, E2.
  destruct d; [replace (Nat.leb (n / 2) (n / 2 + i)) with true by (symmetry; apply Nat.leb_le; lia)|replace (Nat.leb (n / 2) i) with false by (symmetry; apply Nat.leb_gt; lia)]; split; f_equal; lia.
Qed.
Lemma row_pos_valid s : forall is, Forall (fun n => n mod 2 = 0) s -> valid is s -> valid (row_pos s is) (map (fun n => n / 2) s) /\ In (row_band s is) (all_bands (List.length s)).
Proof.
  induction s as [|n s IH]; intros is He Hv; inversion Hv as [|i ? r ? Hi Hr]; subst; cbn [row_pos row_band map List.length all_bands].
  - split; [constructor|left; reflexivity].
  - inversion He as [|? ? Hn He']; subst. destruct (IH r He' Hr) as [E1 E2]. split.
    + constructor; [|exact E1]. destruct (Nat.leb_spec (n / 2) i); lia.
    + apply in_app_iff. destruct (Nat.leb (n / 2) i); [right|left]; apply in_map; exact E2.
Qed.
Lemma band_rows_valid s : forall k ks, Forall (fun n => n mod 2 = 0) s -> List.length k = List.length s -> valid ks (map (fun n => n / 2) s) -> valid (band_rows k s ks) s.
Proof.
  induction s as [|n s IH]; intros [|d k] ks He Hl Hv; try discriminate; inversion Hv as [|i ? r ? Hi Hr]; subst; cbn [band_rows]; [constructor|].
  inversion He; subst. constructor; [destruct d; lia|]. apply IH; auto.
Qed.
Lemma all_bands_len N : forall k, In k (all_bands N) <-> List.length k = N.
Proof.
  induction N as [|N IH]; intros k; cbn [all_bands].
  - split; [intros [<-|[]]; reflexivity|]. destruct k; [left; reflexivity|discriminate].
  - rewrite in_app_iff, !in_map_iff. split.
    + intros [(k' & <- & H)|(k' & <- & H)]; apply IH in H; cbn; congruence.
    + destruct k as [|d k]; [discriminate|]. cbn. intros H. destruct d; [right|left]; exists k; (split; [reflexivity|apply IH; lia]).
Qed.

Section SU.
Context {K : CRing}.
Add Ring Kring : (cr_th K).
Local Open Scope K_scope.
Implicit Types (t u x : tensor K) (w : wavelet K).

Definition orth_rows (s : list nat) (M : list nat -> list nat -> K) : Prop := orth_cols s (fun i j => M j i).
Lemma orth_tprod_rows (A : nat -> nat -> nat -> K) s : Forall (fun n => orthonormal_rows n n (A n)) s -> orth_rows s (tprod A s).
Proof.
  intros H. unfold orth_rows.
  assert (E : forall s is js, List.length is = List.length s -> List.length js = List.length s -> tprod A s js is = tprod (fun n i j => A n j i) s is js).
  { clear. induction s as [|n s IH]; intros [|i is] [|j js] H1 H2; try discriminate; cbn [tprod]; [reflexivity|]. rewrite IH; cbn in *; auto. }
  intros js js' Hj Hj'. rewrite <- (orth_tprod (fun n i j => A n j i) s H js js' Hj Hj'). apply sumI_ext. intros is Hi.
  pose proof (valid_length _ _ Hi). pose proof (valid_length _ _ Hj). pose proof (valid_length _ _ Hj'). rewrite !E by assumption. reflexivity.
Qed.
Lemma orth_image_rows (A : nat -> nat -> nat -> nat -> K) h v : (h mod 2 = 0)%nat -> (v mod 2 = 0)%nat -> orthonormal_rows (v * h) (v * h) (A h v) ->
  orth_rows [h; v] (image_matrix A [h; v]).
Proof.
  intros Hh Hv Ho js js' Hj Hj'.
  inversion Hj as [|k ? r ? Hk Hr]; subst. inversion Hr as [|l ? r2 ? Hl Hr2]; subst. inversion Hr2; subst.
  inversion Hj' as [|k' ? r' ? Hk' Hr']; subst. inversion Hr' as [|l' ? r2' ? Hl' Hr2']; subst. inversion Hr2'; subst.
  cbn [sumI image_matrix]. rewrite !image_row_rix.
  transitivity (dot (v * h) (A h v (rix h v k l)) (A h v (rix h v k' l'))).
  - unfold dot. rewrite sumf_grid, sumf_swap. apply sumf_ext. intros i _. apply sumf_ext. intros j _. unfold image_col. reflexivity.
  - rewrite Ho by (apply rix_lt; assumption). unfold delta. cbn [list_eqb]. destruct (Nat.eqb_spec (rix h v k l) (rix h v k' l')) as [E|E].
    + apply rix_inj in E as [-> ->]; auto. rewrite !Nat.eqb_refl. reflexivity.
    + destruct (Nat.eqb_spec k k') as [->|]; [|reflexivity]. destruct (Nat.eqb_spec l l') as [->|]; [congruence|reflexivity].
Qed.

(** one level *)
Lemma level_surj (M : list nat -> list nat -> list nat -> K) m nax (D : list bool -> tensor K) g sh s :
  good_axes (List.length sh) nax -> List.length s = List.length nax -> Forall (fun n => (n mod 2 = 0)%nat) s -> orth_rows s (M s) ->
  (forall k, List.length k = List.length nax -> wf (D k) /\ ttag (D k) = g /\ shp (D k) = upds nax (map (fun n => n / 2)%nat s) sh) ->
  exists x, wf x /\ ttag x = g /\ shp x = upds nax s sh /\ forall k, List.length k = List.length nax -> bwn_band M m nax k x = D k.
Proof.
  intros [Hn Hin] Hl He Ho HD.
  set (x := tmake g (upds nax s sh) (fun idx => sumI s (fun is => M s is (gather nax 0%nat idx) * get (D (row_band s is)) (upds nax (row_pos s is) idx)))).
  assert (Hsx : shp x = upds nax s sh) by reflexivity.
  assert (Hgx : gather nax 0%nat (shp x) = s) by (rewrite Hsx; apply gather_upds; auto).
  exists x. split; [apply wf_make|]. split; [reflexivity|]. split; [exact Hsx|]. intros k Hk. destruct (HD k Hk) as (D1 & D2 & D3).
  assert (Eu : map even_up s = s) by (apply map_even_up_id, He).
  assert (Eh : map (fun n => even_up n / 2)%nat s = map (fun n => n / 2)%nat s) by (rewrite map_half_even, Eu; reflexivity).
  assert (Hsb : shp (bwn_band M m nax k x) = upds nax (map (fun n => n / 2)%nat s) sh).
  { unfold bwn_band. rewrite shp_along, Hgx, Eh, Hsx. apply upds_upds; [exact Hn|]. rewrite map_length. reflexivity. }
  apply t_ext; [apply wf_make|exact D1|rewrite D2; reflexivity|rewrite Hsb, D3; reflexivity|].
  intros idx Hv. rewrite Hsb in Hv.
  assert (Hli : List.length idx = List.length sh) by (rewrite (valid_length _ _ Hv); apply upds_length).
  unfold bwn_band, along_axes. rewrite Hgx, Eh, Hsx. rewrite get_make by (rewrite upds_upds by (auto; rewrite map_length; reflexivity); exact Hv).
  set (ks := gather nax 0%nat idx).
  assert (Hks : valid ks (map (fun n => n / 2)%nat s)).
  { unfold ks. assert (E : map (fun n => n / 2)%nat s = gather nax 0%nat (upds nax (map (fun n => n / 2)%nat s) sh)) by (symmetry; apply gather_upds; auto; rewrite map_length; exact Hl).
    rewrite E. apply valid_gather_sub; [|exact Hv]. intros d Hd. rewrite upds_length. apply Hin, Hd. }
  unfold bwn_op. rewrite Eu.
  transitivity (sumI s (fun js => sumI s (fun is => get (D (row_band s is)) (upds nax (row_pos s is) idx) * (M s (band_rows k s ks) js * M s is js)))).
  { apply sumI_ext. intros js Hj. rewrite ext_get_id by exact Hj. unfold x. rewrite get_make.
    - rewrite <- sumI_mul_l. apply sumI_ext. intros is Hi. rewrite gather_upds; [|exact Hn|rewrite (valid_length _ _ Hj); exact Hl|intros d Hd; rewrite Hli; apply Hin, Hd].
      rewrite upds_upds; [ring|exact Hn|]. destruct (row_pos_valid s is He Hi) as [Hp _]. rewrite (valid_length _ _ Hp), map_length. symmetry. apply (valid_length _ _ Hj).
    - rewrite <- (upds_upds nax s (map (fun n => n / 2)%nat s) sh Hn) by (rewrite map_length; reflexivity). apply valid_upds; [exact Hv|exact Hj|]. rewrite (valid_length _ _ Hj). exact Hl. }
  rewrite sumI_swap. assert (Hbr : valid (band_rows k s ks) s) by (apply band_rows_valid; auto; congruence).
  rewrite (sumI_single s (band_rows k s ks)); [|exact Hbr|].
  - rewrite sumI_mul_l. pose proof (Ho _ _ Hbr Hbr) as H1. cbv beta in H1. rewrite H1. rewrite (proj2 (list_eqb_spec _ _) eq_refl).
    destruct (row_band_rows s k ks) as [-> ->]; [congruence|exact Hks|]. unfold ks. rewrite upds_gather. ring.
  - intros is Hi Hne. rewrite sumI_mul_l. pose proof (Ho _ _ Hbr Hi) as H1. cbv beta in H1. rewrite H1. destruct (list_eqb Nat.eqb (band_rows k s ks) is) eqn:E; [apply list_eqb_spec in E; congruence|ring].
Qed.

(** all levels: [D j k] is band k of level j + 1 *)
Lemma levels_surj (M : list nat -> list nat -> list nat -> K) m nax g sh s J : forall (a : tensor K) (D : nat -> list bool -> tensor K),
  good_axes (List.length sh) nax -> List.length s = List.length nax -> Forall (Nat.divide (2 ^ J)) s ->
  (forall j, (j < J)%nat -> orth_rows (map (fun n => n / 2 ^ j)%nat s) (M (map (fun n => n / 2 ^ j)%nat s))) ->
  wf a -> ttag a = g -> shp a = upds nax (map (fun n => n / 2 ^ J)%nat s) sh ->
  (forall j k, (j < J)%nat -> List.length k = List.length nax -> wf (D j k) /\ ttag (D j k) = g /\ shp (D j k) = upds nax (map (fun n => n / 2 ^ S j)%nat s) sh) ->
  exists x, wf x /\ ttag x = g /\ shp x = upds nax s sh /\ bwn_approx M m nax J x = a /\
    forall j k, (j < J)%nat -> List.length k = List.length nax -> k <> repeat false (List.length nax) -> bwn_band M m nax k (bwn_approx M m nax j x) = D j k.
Proof.
  induction J as [|J IH]; intros a D Hg Hl Hd Ho A1 A2 A3 HD.
  - exists a. cbn [Nat.pow] in A3. rewrite (map_ext (fun n => n / 1)%nat (fun n => n)) in A3 by (intros; apply Nat.div_1_r). rewrite map_id in A3.
    repeat split; auto. intros j k Hj. lia.
  - assert (Hd' : Forall (Nat.divide (2 ^ J)) s) by (eapply Forall_impl; [|exact Hd]; intros n [q Hq]; exists (q * 2)%nat; cbn [Nat.pow] in Hq; lia).
    assert (Eh : map (fun n => n / 2)%nat (map (fun n => n / 2 ^ J)%nat s) = map (fun n => n / 2 ^ S J)%nat s).
    { rewrite map_map. apply map_ext. intros n. rewrite Nat.div_div by (try lia; apply Nat.pow_nonzero; lia). f_equal. cbn [Nat.pow]. lia. }
    destruct (level_surj M m nax (fun k => if list_eq_dec bool_dec k (repeat false (List.length nax)) then a else D J k) g sh (map (fun n => n / 2 ^ J)%nat s)) as (y & Y1 & Y2 & Y3 & Y4).
    + exact Hg.
    + rewrite map_length. exact Hl.
    + rewrite Forall_map. eapply Forall_impl; [|exact Hd]. intros n [q ->]. cbn [Nat.pow]. replace (q * (2 * 2 ^ J))%nat with ((q * 2) * 2 ^ J)%nat by lia. rewrite Nat.div_mul by (apply Nat.pow_nonzero; lia). apply Nat.mod_mul. lia.
    + apply Ho. lia.
    + intros k Hk. rewrite Eh. destruct (list_eq_dec bool_dec k _); [auto|]. apply HD; [lia|exact Hk].
    + destruct (IH y D Hg Hl Hd') as (x & X1 & X2 & X3 & X4 & X5); auto.
      exists x. repeat split; auto.
      * unfold bwn_approx in X4 |- *. cbn [Nat.iter nat_rect]. fold (Nat.iter J (bwn_band M m nax (repeat false (List.length nax))) x). rewrite X4. rewrite Y4 by apply repeat_length. destruct (list_eq_dec bool_dec _ _); [reflexivity|congruence].
      * intros j k Hj Hk Hne. destruct (Nat.eq_dec j J) as [->|Hj']; [|apply X5; auto; lia]. rewrite X4, Y4 by exact Hk. destruct (list_eq_dec bool_dec _ _); [congruence|reflexivity].
Qed.

(** picking the tensor of a band from a list that is parallel to the list of bands *)
Fixpoint pick_band (d : tensor K) (ks : list (list bool)) (l : list (tensor K)) (k : list bool) : tensor K :=
  match ks, l with k' :: ks', t :: l' => if list_eq_dec bool_dec k' k then t else pick_band d ks' l' k | _, _ => d end.
Lemma pick_band_in d ks : forall l k, List.length l = List.length ks -> In k ks -> In (pick_band d ks l k) l.
Proof.
  induction ks as [|k' ks IH]; intros [|t l] k Hl Hk; try discriminate; [destruct Hk|]. cbn [pick_band]. destruct (list_eq_dec bool_dec k' k) as [->|Hne]; [left; reflexivity|].
  right. apply IH; [cbn in Hl; lia|]. destruct Hk; [contradiction|assumption].
Qed.
Lemma pick_band_or d ks : forall l k, pick_band d ks l k = d \/ In (pick_band d ks l k) l.
Proof.
  induction ks as [|k' ks IH]; intros [|t l] k; cbn [pick_band]; auto. destruct (list_eq_dec bool_dec k' k); [right; left; reflexivity|]. destruct (IH l k) as [->|H]; [auto|right; right; exact H].
Qed.
Lemma map_pick_band d ks : forall l, NoDup ks -> List.length l = List.length ks -> map (pick_band d ks l) ks = l.
Proof.
  induction ks as [|k' ks IH]; intros [|t l] Hn Hl; try discriminate; [reflexivity|]. inversion Hn; subst. cbn [map pick_band]. destruct (list_eq_dec bool_dec k' k'); [|congruence].
  f_equal. transitivity (map (pick_band d ks l) ks); [|apply IH; [assumption|cbn in Hl; lia]]. apply map_ext_in. intros k Hk. destruct (list_eq_dec bool_dec k' k); [congruence|reflexivity].
Qed.
Lemma map_nth_rev {A} (l : list A) (d : A) : map (fun j => nth (List.length l - 1 - j) l d) (rev (seq 0 (List.length l))) = l.
Proof.
  rewrite map_rev. transitivity (rev (rev l)); [|apply rev_involutive]. f_equal. apply nth_ext with (d := d) (d' := d).
  - rewrite map_length, seq_length, rev_length. reflexivity.
  - intros n Hn. rewrite map_length, seq_length in Hn. rewrite (nth_indep _ d (nth (List.length l - 1 - 0) l d)) by (rewrite map_length, seq_length; exact Hn).
    rewrite (map_nth (fun j => nth (List.length l - 1 - j) l d)). rewrite seq_nth by exact Hn. rewrite rev_nth by exact Hn. f_equal. lia.
Qed.
(** the sizes of the coefficients of a signal with sizes s along the axes nax (other sizes: sh), coarsest level first *)
Definition coeff_sizes (nax : list nat) (g : tag) (sh s : list nat) (nb : nat) (a : tensor K) (levels : list (list (tensor K))) : Prop :=
  let J := List.length levels in
  Forall (Nat.divide (2 ^ J)) s /\ wf a /\ ttag a = g /\ shp a = upds nax (map (fun n => n / 2 ^ J)%nat s) sh /\
  forall i, (i < J)%nat -> List.length (nth i levels []) = nb /\
    forall d, In d (nth i levels []) -> wf d /\ ttag d = g /\ shp d = upds nax (map (fun n => n / 2 ^ (J - i))%nat s) sh.
Lemma coeffs_surj (M : list nat -> list nat -> list nat -> K) m nax g sh s ks a levels :
  good_axes (List.length sh) nax -> List.length s = List.length nax -> NoDup ks -> Forall (fun k => List.length k = List.length nax /\ k <> repeat false (List.length nax)) ks ->
  (forall j, (j < List.length levels)%nat -> orth_rows (map (fun n => n / 2 ^ j)%nat s) (M (map (fun n => n / 2 ^ j)%nat s))) ->
  coeff_sizes nax g sh s (List.length ks) a levels ->
  exists x, wf x /\ ttag x = g /\ shp x = upds nax s sh /\ bwn_approx M m nax (List.length levels) x = a /\
    map (fun j => map (fun k => bwn_band M m nax k (bwn_approx M m nax j x)) ks) (rev (seq 0 (List.length levels))) = levels.
Proof.
  intros Hg Hl Hnk Hks Ho (Hd & A1 & A2 & A3 & HD). set (J := List.length levels) in *.
  set (dflt := fun j => tmake g (upds nax (map (fun n => n / 2 ^ S j)%nat s) sh) (fun _ => 0 : K)).
  destruct (levels_surj M m nax g sh s J a (fun j => pick_band (dflt j) ks (nth (J - 1 - j) levels [])) Hg Hl Hd Ho A1 A2 A3) as (x & X1 & X2 & X3 & X4 & X5).
  { intros j k Hj Hk. destruct (HD (J - 1 - j)%nat ltac:(lia)) as [_ HD']. destruct (pick_band_or (dflt j) ks (nth (J - 1 - j) levels []) k) as [E|E].
    - cbv beta. rewrite E. repeat split. apply wf_make.
    - destruct (HD' _ E) as (B1 & B2 & B3). replace (J - (J - 1 - j))%nat with (S j) in B3 by lia. auto. }
  exists x. repeat split; auto. transitivity (map (fun j => nth (J - 1 - j) levels []) (rev (seq 0 J))); [|apply map_nth_rev].
  apply map_ext_in. intros j Hj. apply in_rev, in_seq in Hj. rewrite <- (map_pick_band (dflt j) ks (nth (J - 1 - j) levels [])); [|exact Hnk|apply HD; lia].
  apply map_ext_in. intros k Hk. rewrite Forall_forall in Hks. destruct (Hks k Hk). apply X5; auto. lia.
Qed.
End SU.
