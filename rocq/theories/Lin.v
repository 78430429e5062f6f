(** Linearity and fibrewise behaviour of the specified transforms. *)
From Coq Require Import List Arith ZArith Lia Bool String.
From Coq Require Import ZifyNat ZifyBool.
From Verif Require Import Base Sums Tensor TensorFacts Util Perm Plumb Spec CoreFacts Analysis PRKernel Synthesis Filters Wave1 Wave1Inv Rec1.
Import ListNotations.
Ltac Zify.zify_post_hook ::= Z.div_mod_to_equations.

Section Lin.
Context {K : CRing}.
Add Ring Kring : (cr_th K).
Implicit Types x y : tensor K.
Local Open Scope K_scope.

(** * linear combinations *)
Lemma nth_map2_lin (a b : K) l l' i : List.length l = List.length l' ->
  nth i (map2 (fun p q : K => a * p + b * q) l l') 0 = a * nth i l 0 + b * nth i l' 0.
Proof.
  revert l' i. induction l as [|u l IH]; intros [|v l'] i Hl; cbn in Hl; try lia; destruct i; cbn; try ring; auto.
Qed.

Lemma get_tlin a b x y idx : wf x -> wf y -> shp y = shp x -> get (tlin a b x y) idx = a * get x idx + b * get y idx.
Proof.
  intros Hx Hy Hs. unfold get, tlin. cbn [shp dat]. rewrite Hs. apply nth_map2_lin.
  unfold wf in *. rewrite Hx, Hy, Hs. reflexivity.
Qed.

Lemma wf_tlin a b x y : wf x -> wf y -> shp y = shp x -> wf (tlin a b x y).
Proof. unfold wf, tlin. cbn [shp dat]. intros Hx Hy Hs. rewrite map2_length, Hx, Hy, Hs. lia. Qed.

Lemma ext_get_lin m s (X Y Z0 : list nat -> K) a b zs : (forall is, Z0 is = a * X is + b * Y is) ->
  ext_get m s Z0 zs = a * ext_get m s X zs + b * ext_get m s Y zs.
Proof. intros H. unfold ext_get. destruct (ext_idxs m s zs); [apply H|ring]. Qed.

Lemma sumI_lin s (f g h : list nat -> K) a b : (forall i, h i = a * f i + b * g i) ->
  sumI s h = a * sumI s f + b * sumI s g.
Proof.
  intros H. rewrite <- !sumI_mul_l, <- sumI_add. apply sumI_ext. intros i _. apply H.
Qed.
Lemma sumf_lin n (f g h : nat -> K) a b : (forall i, (i < n)%nat -> h i = a * f i + b * g i) ->
  sumf n h = a * sumf n f + b * sumf n g.
Proof.
  intros H. rewrite <- !sumf_mul_l, <- sumf_add. apply sumf_ext. exact H.
Qed.

Lemma dwt_op_lin fs m s (X Y Z0 : list nat -> K) a b ks : (forall is, Z0 is = a * X is + b * Y is) ->
  dwt_op fs m s Z0 ks = a * dwt_op fs m s X ks + b * dwt_op fs m s Y ks.
Proof. intros H. unfold dwt_op. apply sumI_lin. intros js. rewrite (ext_get_lin m s X Y Z0 a b) by exact H. ring. Qed.

Lemma idwt_op_lin L gs s (X Y Z0 : list nat -> K) a b ks : (forall is, Z0 is = a * X is + b * Y is) ->
  idwt_op L gs s Z0 ks = a * idwt_op L gs s X ks + b * idwt_op L gs s Y ks.
Proof. intros H. unfold idwt_op. apply sumI_lin. intros js. rewrite H. ring. Qed.

Lemma along_lin osz op nax x y a b : wf x -> wf y -> shp y = shp x ->
  (forall s X Y Z0 k, (forall is, Z0 is = a * X is + b * Y is) -> op s Z0 k = a * op s X k + b * op s Y k) ->
  along_axes osz op nax (tlin a b x y) = tlin a b (along_axes osz op nax x) (along_axes osz op nax y) /\
  shp (along_axes osz op nax y) = shp (along_axes osz op nax x).
Proof.
  intros Hx Hy Hs Hop.
  assert (Hsh : shp (along_axes osz op nax y) = shp (along_axes osz op nax x)) by (rewrite !shp_along, Hs; reflexivity).
  split; [|exact Hsh]. apply t_ext.
  - apply wf_make.
  - apply wf_tlin; [apply wf_make|apply wf_make|exact Hsh].
  - reflexivity.
  - rewrite shp_along. cbn [tlin shp]. rewrite shp_along. reflexivity.
  - intros idx Hv. rewrite get_tlin; [|apply wf_make|apply wf_make|exact Hsh].
    rewrite shp_along in Hv. cbn [tlin shp] in Hv.
    unfold along_axes. rewrite !get_make; [|rewrite Hs; exact Hv|exact Hv|exact Hv].
    cbn [tlin shp]. rewrite Hs. apply Hop. intros is. apply (get_tlin a b x y); assumption.
Qed.

Lemma dwt_axes_lin fs m nax x y a b : wf x -> wf y -> shp y = shp x ->
  dwt_axes fs m nax (tlin a b x y) = tlin a b (dwt_axes fs m nax x) (dwt_axes fs m nax y) /\
  shp (dwt_axes fs m nax y) = shp (dwt_axes fs m nax x).
Proof. intros. apply along_lin; auto. intros. apply dwt_op_lin. assumption. Qed.

Lemma approx_lin lo m nax j x y a b : wf x -> wf y -> shp y = shp x ->
  approx lo m nax j (tlin a b x y) = tlin a b (approx lo m nax j x) (approx lo m nax j y) /\
  shp (approx lo m nax j y) = shp (approx lo m nax j x).
Proof.
  intros Hx Hy Hs. induction j as [|j IH]; [auto|]. rewrite !approx_S. destruct IH as [-> Hs'].
  apply dwt_axes_lin; auto using approx_wf.
Qed.

Lemma detail_lin lo fs m nax j x y a b : wf x -> wf y -> shp y = shp x ->
  detail lo fs m nax j (tlin a b x y) = tlin a b (detail lo fs m nax j x) (detail lo fs m nax j y) /\
  shp (detail lo fs m nax j y) = shp (detail lo fs m nax j x).
Proof.
  intros Hx Hy Hs. unfold detail. destruct (approx_lin lo m nax (j - 1) x y a b Hx Hy Hs) as [-> Hs'].
  apply dwt_axes_lin; auto using approx_wf.
Qed.

Lemma wavedec_spec_lin lo hi m a0 J x y a b : wf x -> wf y -> shp y = shp x ->
  wavedec_spec lo hi m a0 J (tlin a b x y) = map2 (tlin a b) (wavedec_spec lo hi m a0 J x) (wavedec_spec lo hi m a0 J y).
Proof.
  intros Hx Hy Hs. unfold wavedec_spec. cbn [map2]. f_equal; [apply approx_lin; assumption|].
  induction (rev (seq 1 J)) as [|j l IH]; [reflexivity|]. cbn [map map2]. rewrite IH. f_equal. apply detail_lin; assumption.
Qed.

Lemma idwt_axes_lin L C gs nax (xs ys : nat -> tensor K) outs a b : (1 <= C)%nat ->
  (forall c, (c < C)%nat -> wf (xs c) /\ wf (ys c) /\ shp (xs c) = shp (xs 0%nat) /\ shp (ys c) = shp (xs 0%nat)) ->
  idwt_axes L C gs nax (fun c => tlin a b (xs c) (ys c)) outs = tlin a b (idwt_axes L C gs nax xs outs) (idwt_axes L C gs nax ys outs) /\
  shp (idwt_axes L C gs nax ys outs) = shp (idwt_axes L C gs nax xs outs).
Proof.
  intros HC Hall. destruct (Hall 0%nat ltac:(lia)) as (Hx0 & Hy0 & _ & Hs0).
  assert (Hsh : shp (idwt_axes L C gs nax ys outs) = shp (idwt_axes L C gs nax xs outs)).
  { unfold idwt_axes. rewrite !shp_make, Hs0. reflexivity. }
  split; [|exact Hsh]. apply t_ext.
  - apply wf_make.
  - apply wf_tlin; [apply wf_make|apply wf_make|exact Hsh].
  - reflexivity.
  - reflexivity.
  - intros idx Hv. rewrite get_tlin; [|apply wf_make|apply wf_make|exact Hsh].
    unfold idwt_axes in *. rewrite shp_make in Hv. cbn [tlin shp] in Hv.
    rewrite !get_make; [|rewrite Hs0; exact Hv|exact Hv|exact Hv].
    cbn [tlin shp]. rewrite Hs0. apply sumf_lin. intros c Hc. destruct (Hall c Hc) as (A & B & C0 & D).
    apply idwt_op_lin. intros is. apply (get_tlin a b (xs c) (ys c)); congruence.
Qed.

(** reconstruction *)
Lemma waverec_spec_lin (his : list (tensor K)) : forall L rlo rhi a0 (lo lo' : tensor K) his' a b, wf lo -> wf lo' -> shp lo' = shp lo ->
  Forall2 (fun h h' => wf h /\ wf h' /\ shp h' = shp h) his his' ->
  (a0 < rank lo)%nat ->
  lens_fit L (alen a0 lo) (map (alen a0) his) -> Forall (fun h => rank h = rank lo /\ fsz [a0] (shp h) = fsz [a0] (shp lo)) his ->
  waverec_spec L rlo rhi a0 (tlin a b lo lo') (map2 (tlin a b) his his')
  = tlin a b (waverec_spec L rlo rhi a0 lo his) (waverec_spec L rlo rhi a0 lo' his').
Proof.
  induction his as [|h his IH]; intros L rlo rhi a0 lo lo' his' a b Hw Hw' Hs HF Ha Hfit Hall; inversion HF as [|? h' ? rest' (A & B & C) HF']; subst; [reflexivity|].
  cbn [map2 waverec_spec]. inversion Hall as [|? ? [Hr Hf] Hall']; subst.
  cbn [map lens_fit] in Hfit. destruct Hfit as (Hk & Hk1 & Hrest).
  assert (Hsh : shp h = shp lo).
  { apply (shp_eq_fsz [a0]); auto using good_axes1. cbn. unfold alen in Hk. rewrite Hk. reflexivity. }
  assert (En : rec_len L a0 lo' rest' = rec_len L a0 lo his).
  { unfold rec_len. inversion HF' as [|? ? ? ? (A1 & A2 & A3) HF'']; subst; [rewrite Hs; reflexivity|rewrite A3; reflexivity]. }
  assert (En2 : rec_len L a0 (tlin a b lo lo') (map2 (tlin a b) his rest') = rec_len L a0 lo his).
  { unfold rec_len. inversion HF'; subst; reflexivity. }
  rewrite En, En2. set (n := rec_len L a0 lo his).
  assert (E : idwt1 L rlo rhi a0 (tlin a b lo lo') (tlin a b h h') n = tlin a b (idwt1 L rlo rhi a0 lo h n) (idwt1 L rlo rhi a0 lo' h' n)
     /\ shp (idwt1 L rlo rhi a0 lo' h' n) = shp (idwt1 L rlo rhi a0 lo h n)).
  { unfold idwt1.
    rewrite (idwt_axes_ext L 2 _ (fun c => match c with O => [rlo] | _ => [rhi] end) [a0] (fun c => match c with O => tlin a b lo lo' | _ => tlin a b h h' end)
       (fun c => tlin a b (match c with O => lo | _ => h end) (match c with O => lo' | _ => h' end))) by (auto; intros [|c]; reflexivity).
    apply (idwt_axes_lin L 2 _ [a0] (fun c => match c with O => lo | _ => h end) (fun c => match c with O => lo' | _ => h' end)); [lia|].
    intros [|c] Hc; repeat split; auto; congruence. }
  destruct E as [-> Es].
  destruct (idwt1_facts L rlo rhi a0 lo h n Ha) as (F1 & F2 & F3 & F4 & F5 & F6).
  assert (Ha' : (a0 < rank lo')%nat) by (unfold rank; rewrite Hs; exact Ha).
  destruct (idwt1_facts L rlo rhi a0 lo' h' n Ha') as (F1' & _).
  apply IH; auto.
  - rewrite F2. exact Ha.
  - unfold alen at 1. rewrite F5. unfold n, rec_len. destruct his as [|h2 rest]; cbn [map] in *; [exact I|]. apply Hrest.
  - eapply Forall_impl; [|exact Hall']. cbv beta. intros h2 (A2 & A3). rewrite F4, A2, F2. auto.
Qed.

(** * fibres *)
Lemma upds_seq (D : nat) is ks : List.length is = D -> List.length ks = D -> upds (seq 0 D) is ks = is.
Proof.
  intros H1 H2. apply (nth_ext_len _ _ 0%nat); [rewrite upds_length; lia|]. rewrite upds_length. intros i Hi.
  assert (E : gather (seq 0 D) 0%nat (upds (seq 0 D) is ks) = is).
  { apply gather_upds; [apply seq_NoDup|rewrite seq_length; exact H1|]. intros d Hd. apply in_seq in Hd. lia. }
  rewrite <- E at 2. unfold gather. rewrite nth_map_seq by lia. reflexivity.
Qed.

Lemma fib_valid nax idx s is : NoDup nax -> (forall d, In d nax -> (d < List.length s)%nat) -> fib_ok nax idx s ->
  valid is (gather nax 0%nat s) -> valid (upds nax is idx) s.
Proof.
  intros Hn Hlt [Hl Hf] Hv. apply valid_intro; [rewrite upds_length; exact Hl|]. intros d Hd.
  destruct (in_dec Nat.eq_dec d nax) as [Hin|Hin].
  - apply (In_nth _ _ 0%nat) in Hin as (i & Hi & Ei).
    assert (E : gather nax 0%nat (upds nax is idx) = is).
    { apply gather_upds; auto; [apply valid_length in Hv; rewrite gather_length in Hv; exact Hv|]. intros e He. rewrite Hl. auto. }
    assert (Hg : forall l : list nat, nth i (gather nax 0%nat l) 0%nat = nth d l 0%nat).
    { intros l. unfold gather. rewrite (nth_map_in _ _ _ 0%nat) by exact Hi. rewrite Ei. reflexivity. }
    rewrite <- (Hg (upds nax is idx)), E, <- (Hg s). apply valid_nth; [exact Hv|]. rewrite gather_length. exact Hi.
  - rewrite nth_upds_notin by exact Hin. apply Hf; assumption.
Qed.

Lemma fib_ok_shape nax idx s vals : fib_ok nax idx s -> fib_ok nax idx (upds nax vals s).
Proof.
  intros [Hl Hf]. split; [rewrite upds_length; exact Hl|]. rewrite upds_length. intros d Hd Hn.
  rewrite nth_upds_notin by exact Hn. auto.
Qed.

Lemma rank_fibre nax idx x : rank (fibre nax idx x) = List.length nax.
Proof. unfold rank, fibre. rewrite shp_make. apply gather_length. Qed.

Lemma good_seq D : good_axes D (seq 0 D).
Proof. split; [apply seq_NoDup|]. intros d Hd. apply in_seq in Hd. lia. Qed.

Lemma gather_seq_all (l : list nat) D : List.length l = D -> gather (seq 0 D) 0%nat l = l.
Proof. intros <-. apply gather_seq_id. Qed.

Lemma fibre_along osz op nax idx x : good_axes (rank x) nax -> fib_ok nax idx (shp x) ->
  List.length (osz (gather nax 0%nat (shp x))) = List.length nax -> op_ext (gather nax 0%nat (shp x)) op ->
  fibre nax idx (along_axes osz op nax x) = along_axes osz op (seq 0 (List.length nax)) (fibre nax idx x).
Proof.
  intros Hg Hf Hlo Hop. set (D := List.length nax). set (s := gather nax 0%nat (shp x)).
  assert (Hs : shp (fibre nax idx x) = s) by reflexivity.
  assert (Hsl : List.length s = D) by (unfold s; apply gather_length).
  assert (Hgs : gather (seq 0 D) 0%nat s = s) by (apply gather_seq_all; exact Hsl).
  assert (Hsh : shp (fibre nax idx (along_axes osz op nax x)) = osz s).
  { unfold fibre. rewrite shp_make. apply gather_along; assumption. }
  assert (Hsh2 : shp (along_axes osz op (seq 0 D) (fibre nax idx x)) = osz s).
  { rewrite shp_along, Hs, Hgs. apply upds_seq; [exact Hlo|exact Hsl]. }
  apply t_ext; try apply wf_make; [reflexivity|congruence|].
  intros ks Hv. rewrite Hsh in Hv.
  pose proof (valid_length _ _ Hv) as Hkl. fold s in Hlo; rewrite Hlo in Hkl. fold D in Hkl.
  unfold fibre at 1. rewrite get_make by (rewrite <- Hsh in Hv; exact Hv).
  assert (Hlt : forall d, In d nax -> (d < List.length (shp x))%nat) by (intros d Hd; apply Hg in Hd; exact Hd).
  assert (Hvv : valid (upds nax ks idx) (upds nax (osz s) (shp x))).
  { apply fib_valid; [apply Hg|intros d Hd; rewrite upds_length; auto|apply fib_ok_shape; exact Hf|].
    rewrite gather_upds; auto; apply Hg. }
  unfold along_axes. rewrite get_make by exact Hvv.
  rewrite get_make.
  2:{ rewrite <- Hsh2 in Hv. unfold along_axes in Hv. rewrite shp_make in Hv. exact Hv. }
  rewrite Hs, Hgs. rewrite gather_seq_all by exact Hkl.
  rewrite gather_upds; [|apply Hg|exact Hkl|intros d Hd; destruct Hf as [Hf _]; rewrite Hf; auto].
  fold s. apply Hop; [fold s; lia|]. intros is His. fold s in His.
  pose proof (valid_length _ _ His) as Hil. rewrite upds_seq by lia.
  unfold fibre. rewrite get_make by exact His. rewrite upds_upds; [reflexivity|apply Hg|lia].
Qed.

Lemma fibre_dwt fs m L nax idx x : good_axes (rank x) nax -> fib_ok nax idx (shp x) -> (2 <= L)%nat ->
  List.length fs = List.length nax -> Forall (fun f => List.length f = L) fs -> adm_axes m L nax (shp x) ->
  fibre nax idx (dwt_axes fs m nax x) = dwt_axes fs m (seq 0 (List.length nax)) (fibre nax idx x).
Proof.
  intros Hg Hf HL Hl HfL Ha. apply fibre_along; auto.
  - rewrite map2_length, gather_length. lia.
  - apply dwt_op_ext; [rewrite gather_length; exact Hl|].
    eapply Forall_impl; [|exact Ha]. intros n. apply adm_extendable. exact HL.
Qed.

Lemma fibre_idwt L C gs nax idx (ys : nat -> tensor K) outs : (1 <= C)%nat -> good_axes (rank (ys 0%nat)) nax ->
  fib_ok nax idx (shp (ys 0%nat)) -> (forall c, (c < C)%nat -> shp (ys c) = shp (ys 0%nat)) -> List.length outs = List.length nax ->
  fibre nax idx (idwt_axes L C gs nax ys outs) = idwt_axes L C gs (seq 0 (List.length nax)) (fun c => fibre nax idx (ys c)) outs.
Proof.
  intros HC Hg Hf Hsh Hlo. set (D := List.length nax). set (s := gather nax 0%nat (shp (ys 0%nat))).
  assert (Hsl : List.length s = D) by (unfold s; apply gather_length).
  assert (Hgs : gather (seq 0 D) 0%nat s = s) by (apply gather_seq_all; exact Hsl).
  assert (Hlt : forall d, In d nax -> (d < List.length (shp (ys 0%nat)))%nat) by (intros d Hd; apply Hg in Hd; exact Hd).
  assert (Hs1 : shp (fibre nax idx (idwt_axes L C gs nax ys outs)) = outs).
  { unfold fibre, idwt_axes. rewrite !shp_make. apply gather_upds; auto; apply Hg. }
  assert (Hs2 : shp (idwt_axes L C gs (seq 0 D) (fun c => fibre nax idx (ys c)) outs) = outs).
  { unfold idwt_axes. rewrite shp_make. change (shp (fibre nax idx (ys 0%nat))) with s. apply upds_seq; assumption. }
  apply t_ext; try apply wf_make; [reflexivity|congruence|].
  intros ks Hv. rewrite Hs1 in Hv. pose proof (valid_length _ _ Hv) as Hkl. rewrite Hlo in Hkl. fold D in Hkl.
  unfold fibre at 1. rewrite get_make by (rewrite <- Hs1 in Hv; exact Hv).
  unfold idwt_axes. rewrite get_make.
  2:{ apply fib_valid; [apply Hg|intros d Hd; rewrite upds_length; auto|apply fib_ok_shape; exact Hf|]. rewrite gather_upds; auto; apply Hg. }
  rewrite get_make.
  2:{ change (shp (fibre nax idx (ys 0%nat))) with s. rewrite upds_seq; auto. }
  change (shp (fibre nax idx (ys 0%nat))) with s. rewrite Hgs. rewrite gather_seq_all by exact Hkl.
  rewrite gather_upds; [|apply Hg|exact Hkl|intros d Hd; destruct Hf as [Hf _]; rewrite Hf; auto].
  fold s. apply sumf_ext. intros c Hc. apply idwt_op_ext; [lia|]. intros is His.
  pose proof (valid_length _ _ His) as Hil. rewrite upds_seq by lia.
  unfold fibre. rewrite get_make by (rewrite Hsh by exact Hc; exact His). rewrite upds_upds; [reflexivity|apply Hg|lia].
Qed.

Lemma fibre_approx (lo : list K) m L nax idx j x J : good_axes (rank x) nax -> fib_ok nax idx (shp x) -> (2 <= L)%nat ->
  List.length lo = L -> levels_axes m L J nax (shp x) -> (j <= J)%nat ->
  fibre nax idx (approx lo m nax j x) = approx lo m (seq 0 (List.length nax)) j (fibre nax idx x) /\
  fib_ok nax idx (shp (approx lo m nax j x)).
Proof.
  intros Hg Hf HL Hlo Hlev. induction j as [|j IH]; intros Hj; [auto|]. destruct IH as [IH1 IH2]; [lia|].
  rewrite !approx_S. rewrite seq_length. split.
  - rewrite <- IH1. apply (fibre_dwt _ m L); auto.
    + rewrite approx_rank. exact Hg.
    + apply repeat_length.
    + apply Forall_repeat. exact Hlo.
    + apply (levels_axes_adm lo m L J); auto.
  - unfold dwt_axes. rewrite shp_along. apply fib_ok_shape. exact IH2.
Qed.

Lemma fibre_wavedec_spec (lo hi : list K) m L a idx J x : (a < rank x)%nat -> fib_ok [a] idx (shp x) -> (2 <= L)%nat ->
  List.length lo = L -> List.length hi = L -> levels_ok m L J (alen a x) ->
  map (fibre [a] idx) (wavedec_spec lo hi m a J x) = wavedec_spec lo hi m 0 J (fibre [a] idx x).
Proof.
  intros Ha Hf HL H1 H2 Hlev. pose proof (good_axes1 _ _ Ha) as Hg.
  assert (Hlx : levels_axes m L J [a] (shp x)) by (unfold levels_axes; cbn; constructor; [exact Hlev|constructor]).
  unfold wavedec_spec. cbn [map]. f_equal.
  - apply (fibre_approx lo m L [a] idx J x J); auto.
  - rewrite map_map. apply map_ext_in. intros j Hj. apply in_rev in Hj. apply in_seq in Hj.
    unfold detail. destruct (fibre_approx lo m L [a] idx (j - 1) x J Hg Hf HL H1 Hlx ltac:(lia)) as [E1 E2].
    change (approx lo m [0%nat] (j - 1) (fibre [a] idx x)) with (approx lo m (seq 0 (List.length [a])) (j - 1) (fibre [a] idx x)).
    rewrite <- E1. apply (fibre_dwt [hi] m L [a] idx); auto.
    + rewrite approx_rank. exact Hg.
    + apply (levels_axes_adm lo m L J); auto. lia.
Qed.

Lemma fibre_waverec_spec (his : list (tensor K)) : forall L rlo rhi a idx (lo : tensor K), (a < rank lo)%nat -> fib_ok [a] idx (shp lo) ->
  lens_fit L (alen a lo) (map (alen a) his) -> Forall (fun h => rank h = rank lo /\ fsz [a] (shp h) = fsz [a] (shp lo)) his ->
  fibre [a] idx (waverec_spec L rlo rhi a lo his) = waverec_spec L rlo rhi 0 (fibre [a] idx lo) (map (fibre [a] idx) his).
Proof.
  induction his as [|h his IH]; intros L rlo rhi a idx lo Ha Hf Hfit Hall; [reflexivity|].
  cbn [waverec_spec map]. inversion Hall as [|? ? [Hr Hfz] Hall']; subst.
  cbn [map lens_fit] in Hfit. destruct Hfit as (Hk & Hk1 & Hrest).
  assert (Hsh : shp h = shp lo).
  { apply (shp_eq_fsz [a]); auto using good_axes1. cbn. unfold alen in Hk. rewrite Hk. reflexivity. }
  assert (En : rec_len L 0 (fibre [a] idx lo) (map (fibre [a] idx) his) = rec_len L a lo his) by (destruct his; reflexivity).
  rewrite En. set (n := rec_len L a lo his).
  destruct (idwt1_facts L rlo rhi a lo h n Ha) as (F1 & F2 & F3 & F4 & F5 & F6).
  rewrite IH.
  - apply (f_equal (fun z => waverec_spec L rlo rhi 0 z (map (fibre [a] idx) his))). unfold idwt1.
    set (gs := fun c : nat => match c with O => [rlo] | S _ => [rhi] end).
    assert (E : fibre [a] idx (idwt_axes L 2 gs [a] (fun c => match c with O => lo | S _ => h end) [n])
       = idwt_axes L 2 gs (seq 0 1) (fun c => fibre [a] idx (match c with O => lo | S _ => h end)) [n]).
    { apply (fibre_idwt L 2 gs [a] idx (fun c => match c with O => lo | S _ => h end) [n]); auto using good_axes1.
      intros [|c] _; auto. }
    rewrite E. apply idwt_axes_ext; [lia|auto|]. intros [|c] _; reflexivity.
  - rewrite F2. exact Ha.
  - rewrite F6. apply (fib_ok_shape [a] idx (shp lo) [n]). exact Hf.
  - unfold alen at 1. rewrite F5. unfold n, rec_len. destruct his as [|h2 rest]; cbn [map] in *; [exact I|]. apply Hrest.
  - eapply Forall_impl; [|exact Hall']. cbv beta. intros h2 (A2 & A3). rewrite F4, A2, F2. auto.
Qed.

(** * the reconstruction agrees with the input *)
Lemma wf_fibre nax idx x : wf (fibre nax idx x). Proof. apply wf_make. Qed.

Lemma ext_even_get m nax x idx : wf x -> good_axes (rank x) nax -> valid idx (shp (ext_even m nax x)) ->
  get (ext_even m nax x) idx = ext_get m (gather nax 0%nat (shp x)) (fun is => get x (upds nax is idx)) (map Z.of_nat (gather nax 0%nat idx)).
Proof.
  intros Hw Hg Hv. unfold ext_even, along_axes in *. rewrite shp_make in Hv. rewrite get_make by exact Hv. reflexivity.
Qed.

Lemma shp_ext_even m nax x : shp (ext_even (K := K) m nax x) = upds nax (map even_up (gather nax 0%nat (shp x))) (shp x).
Proof. apply shp_along. Qed.

Lemma valid_ext_even (m : mode) nax x idx : NoDup nax -> (forall d, In d nax -> (d < rank x)%nat) -> valid idx (shp x) -> valid idx (shp (ext_even m nax x)).
Proof.
  intros Hn Hlt Hv. rewrite shp_ext_even. pose proof (valid_length _ _ Hv) as Hl.
  rewrite <- (upds_gather nax idx). apply fib_valid; auto.
  - intros d Hd. rewrite upds_length. apply Hlt. exact Hd.
  - apply fib_ok_shape. split; [exact Hl|]. intros d Hd _. apply valid_nth; assumption.
  - rewrite gather_upds; auto; [|rewrite map_length; apply gather_length].
    assert (Hg : valid (gather nax 0%nat idx) (gather nax 0%nat (shp x))) by (apply valid_gather_sub; auto).
    clear - Hg. set (u := gather nax 0%nat idx) in *. set (v := gather nax 0%nat (shp x)) in *. clearbody u v.
    induction Hg as [|i n u v H Hg IH]; cbn; constructor; [unfold even_up; lia|exact IH].
Qed.

Lemma ext_even_agrees m nax x : wf x -> good_axes (rank x) nax -> agrees_on x (ext_even m nax x).
Proof.
  intros Hw [Hn Hlt]. split; [rewrite shp_ext_even; apply upds_length|]. split; [reflexivity|].
  intros idx Hv. assert (Hve : valid idx (shp (ext_even m nax x))) by (apply valid_ext_even; assumption).
  split; [exact Hve|]. rewrite ext_even_get; auto; [|split; assumption].
  rewrite ext_get_id; [rewrite upds_gather; reflexivity|]. apply valid_gather_sub; [|exact Hv]. exact Hlt.
Qed.

Lemma agrees_refl x : agrees_on x x.
Proof. repeat split; auto. Qed.

End Lin.
