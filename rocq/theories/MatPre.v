(** Facts about multiplying along one axis, splitting and concatenating; evenly extending tensors. *)
From Coq Require Import List Arith ZArith Lia Bool String Ring.
From Coq Require Import ZifyNat ZifyBool.
From Verif Require Import Base Sums Tensor TensorFacts Util Perm Plumb Spec Conv1 PadFacts CoreFacts Synthesis Filters SpecMat.
Import ListNotations.
Ltac Zify.zify_post_hook ::= Z.div_mod_to_equations.

Section MP.
Context {K : CRing}.
Add Ring Kring : (cr_th K).
Open Scope K_scope.
Implicit Types (t u x : tensor K) (M : nat -> nat -> K).

Lemma shp_mat_axis M rows a x : shp (mat_axis M rows a x) = updn a rows (shp x).
Proof. unfold mat_axis. rewrite shp_along. reflexivity. Qed.
Lemma rank_mat_axis M rows a x : rank (mat_axis M rows a x) = rank x.
Proof. unfold rank. rewrite shp_mat_axis, updn_length. reflexivity. Qed.
Lemma wf_mat_axis M rows a x : wf (mat_axis M rows a x).
Proof. apply wf_make. Qed.
Lemma ttag_mat_axis M rows a x : ttag (mat_axis M rows a x) = ttag x.
Proof. reflexivity. Qed.
Lemma get_mat_axis M rows a x idx : valid idx (updn a rows (shp x)) ->
  get (mat_axis M rows a x) idx = sumf (nth a (shp x) 0%nat) (fun j => M (nth a idx 0%nat) j * get x (updn a j idx)).
Proof. intros Hv. unfold mat_axis, along_axes. rewrite get_make; [reflexivity|]. exact Hv. Qed.
Lemma nth_valid_updn idx a rows s : valid idx (updn a rows s) -> (a < List.length s)%nat -> (nth a idx 0%nat < rows)%nat.
Proof.
  intros Hv Ha. pose proof (valid_nth _ _ a Hv) as H. rewrite updn_length in H. specialize (H Ha). rewrite nth_updn_eq in H by exact Ha. exact H.
Qed.
Lemma valid_back idx a rows s j : valid idx (updn a rows s) -> (a < List.length s)%nat -> (j < nth a s 0%nat)%nat -> valid (updn a j idx) s.
Proof.
  intros Hv Ha Hj. pose proof (valid_updn idx (updn a rows s) a j (nth a s 0%nat) Hv Hj) as H. rewrite updn_updn, updn_same in H. exact H.
Qed.
Lemma mat_axis_ext M M' rows a x : (a < rank x)%nat -> (forall i j, (i < rows)%nat -> (j < nth a (shp x) 0%nat)%nat -> M i j = M' i j) -> mat_axis M rows a x = mat_axis M' rows a x.
Proof.
  intros Ha H. apply t_ext; try apply wf_make; auto.
  intros idx Hv. rewrite shp_mat_axis in Hv. rewrite !get_mat_axis by exact Hv. apply sumf_ext. intros j Hj. rewrite H; auto. apply (nth_valid_updn _ _ _ _ Hv Ha).
Qed.
(** a left inverse along the axis undoes the multiplication *)
Lemma mat_axis_id M M' n rows a x : wf x -> (a < rank x)%nat -> nth a (shp x) 0%nat = n ->
  (forall i k, (i < n)%nat -> (k < n)%nat -> sumf rows (fun j => M' i j * M j k) = delta i k) ->
  mat_axis M' n a (mat_axis M rows a x) = x.
Proof.
  intros Hw Ha Hn H. apply t_ext; [apply wf_make|exact Hw|reflexivity| |].
  - rewrite !shp_mat_axis, updn_updn, <- Hn, updn_same. reflexivity.
  - intros idx Hv. rewrite !shp_mat_axis in Hv.
    assert (Hv' : valid idx (shp x)) by (rewrite updn_updn, <- Hn, updn_same in Hv; exact Hv).
    rewrite get_mat_axis by (rewrite shp_mat_axis; exact Hv). rewrite shp_mat_axis, nth_updn_eq by exact Ha.
    assert (Hi : (nth a idx 0 < n)%nat) by (rewrite <- Hn; apply (valid_nth _ _ a Hv' Ha)).
    set (i := nth a idx 0%nat) in *.
    transitivity (sumf rows (fun j => sumf n (fun k => M' i j * M j k * get x (updn a k idx)))).
    { apply sumf_ext. intros j Hj. rewrite get_mat_axis by (apply valid_updn; [exact Hv'|exact Hj]).
      assert (Hla : (a < List.length idx)%nat) by (rewrite (valid_length _ _ Hv'); exact Ha).
      rewrite nth_updn_eq by exact Hla. rewrite Hn, <- sumf_mul_l. apply sumf_ext. intros k Hk. rewrite updn_updn. ring. }
    rewrite sumf_swap. rewrite (sumf_single n i); [|exact Hi|].
    + assert (Ei : updn a i idx = idx) by apply updn_same. rewrite Ei. rewrite sumf_mul_r. rewrite H by assumption. unfold delta. rewrite Nat.eqb_refl. ring.
    + intros k Hk Hne. rewrite sumf_mul_r, H by assumption. unfold delta. destruct (Nat.eqb_spec i k); [congruence|]. ring.
Qed.
Lemma mat_axis_comm M M' r r' a b x : a <> b -> (a < rank x)%nat -> (b < rank x)%nat ->
  mat_axis M r a (mat_axis M' r' b x) = mat_axis M' r' b (mat_axis M r a x).
Proof.
  intros Hab Ha Hb. apply t_ext; try apply wf_make; [reflexivity|rewrite !shp_mat_axis; apply updn_comm; exact Hab|].
  intros idx Hv. rewrite !shp_mat_axis in Hv.
  assert (Hv2 : valid idx (updn b r' (updn a r (shp x)))) by (rewrite updn_comm by congruence; exact Hv).
  rewrite get_mat_axis by (rewrite shp_mat_axis; exact Hv). rewrite (get_mat_axis M') by (rewrite shp_mat_axis; exact Hv2).
  rewrite !shp_mat_axis, !nth_updn_ne by congruence.
  transitivity (sumf (nth a (shp x) 0%nat) (fun j => sumf (nth b (shp x) 0%nat) (fun k => M (nth a idx 0%nat) j * M' (nth b idx 0%nat) k * get x (updn b k (updn a j idx))))).
  - apply sumf_ext. intros j Hj.
    rewrite get_mat_axis by (apply (valid_back _ _ r); [exact Hv|rewrite updn_length; exact Ha|rewrite nth_updn_ne by congruence; exact Hj]).
    rewrite <- sumf_mul_l. apply sumf_ext. intros k Hk. rewrite nth_updn_ne by congruence. ring.
  - rewrite sumf_swap. apply sumf_ext. intros k Hk.
    rewrite get_mat_axis by (apply (valid_back _ _ r'); [exact Hv2|rewrite updn_length; exact Hb|rewrite nth_updn_ne by congruence; exact Hk]).
    rewrite <- sumf_mul_l. apply sumf_ext. intros j Hj. rewrite nth_updn_ne by congruence. rewrite (updn_comm a b) by exact Hab. ring.
Qed.
(** ** splitting an axis and putting it together again *)
Lemma shp_narrow t d a n : shp (narrow t d a n) = updn d n (shp t).
Proof. reflexivity. Qed.
Lemma cat_split t d h k : wf t -> (d < rank t)%nat -> nth d (shp t) 0%nat = (h + k)%nat -> cat d [narrow t d 0 h; narrow t d h k] = Ok t.
Proof.
  intros Hw Hd Hn. unfold cat. cbn [cat_from]. unfold cat2.
  assert (Hr : forall o n, rank (narrow t d o n) = rank t) by (intros; unfold rank; rewrite shp_narrow, updn_length; reflexivity).
  rewrite !Hr, Nat.eqb_refl. destruct (Nat.ltb_spec d (rank t)); [|lia]. rewrite !shp_narrow, !updn_updn, list_eqb_refl. cbn [andb rbind].
  rewrite !nth_updn_eq by exact Hd. f_equal. apply t_ext; [apply wf_make|exact Hw|reflexivity|rewrite shp_make; rewrite <- Hn, updn_same; reflexivity|].
  intros idx Hv. rewrite shp_make in Hv. rewrite get_make by exact Hv.
  pose proof (nth_valid_updn _ _ _ _ Hv Hd) as Hi.
  destruct (Nat.ltb_spec (nth d idx 0%nat) h) as [Hlt|Hge].
  - rewrite get_narrow by (rewrite <- (updn_same d idx 0%nat); rewrite <- (updn_updn d h (h + k)%nat); apply valid_updn; assumption).
    rewrite Nat.add_0_r, updn_same. reflexivity.
  - rewrite get_narrow by (rewrite <- (updn_updn d k (h + k)%nat); apply valid_updn; [exact Hv|lia]).
    assert (Hla : (d < List.length idx)%nat) by (rewrite (valid_length _ _ Hv), updn_length; exact Hd).
    rewrite nth_updn_eq by exact Hla. rewrite updn_updn. replace (nth d idx 0 - h + h)%nat with (nth d idx 0%nat) by lia. rewrite updn_same. reflexivity.
Qed.
(** the two halves of a product *)
Lemma narrow_mat_axis M rows a x o n : (a < rank x)%nat -> (o + n <= rows)%nat ->
  narrow (mat_axis M rows a x) a o n = mat_axis (fun i => M (o + i)%nat) n a x.
Proof.
  intros Ha Hn. apply t_ext; try apply wf_make; [reflexivity|rewrite shp_narrow, !shp_mat_axis, updn_updn; reflexivity|].
  intros idx Hv. rewrite shp_narrow, shp_mat_axis, updn_updn in Hv. pose proof (nth_valid_updn _ _ _ _ Hv Ha) as Hi.
  rewrite get_narrow by (rewrite shp_mat_axis, updn_updn; exact Hv).
  assert (Hla : (a < List.length idx)%nat) by (rewrite (valid_length _ _ Hv), updn_length; exact Ha).
  rewrite get_mat_axis by (rewrite <- (updn_updn a rows n); apply valid_updn; [exact Hv|lia]). rewrite get_mat_axis by exact Hv.
  apply sumf_ext. intros j Hj. rewrite nth_updn_eq by exact Hla. rewrite updn_updn. do 2 f_equal. lia.
Qed.
Lemma narrow_comm t d e a n b m : d <> e -> (d < rank t)%nat -> (e < rank t)%nat -> (b + m <= nth e (shp t) 0%nat)%nat -> (a + n <= nth d (shp t) 0%nat)%nat ->
  narrow (narrow t d a n) e b m = narrow (narrow t e b m) d a n.
Proof.
  intros Hde Hd He Hb Hn. apply t_ext; try apply wf_make; [reflexivity|rewrite !shp_narrow; apply updn_comm; congruence|].
  intros idx Hv. rewrite !shp_narrow in Hv.
  assert (Hv2 : valid idx (updn d n (updn e m (shp t)))) by (rewrite updn_comm by congruence; exact Hv).
  rewrite get_narrow by (rewrite shp_narrow; exact Hv). rewrite (get_narrow (narrow t e b m)) by (rewrite shp_narrow; exact Hv2).
  assert (H1 : (nth d idx 0 < n)%nat) by (apply (nth_valid_updn _ _ _ _ Hv2); rewrite updn_length; exact Hd).
  assert (H2 : (nth e idx 0 < m)%nat) by (apply (nth_valid_updn _ _ _ _ Hv); rewrite updn_length; exact He).
  rewrite get_narrow by (apply (valid_back _ _ m); [exact Hv|rewrite updn_length; exact He|rewrite nth_updn_ne by congruence; lia]).
  rewrite get_narrow by (apply (valid_back _ _ n); [exact Hv2|rewrite updn_length; exact Hd|rewrite nth_updn_ne by congruence; lia]).
  rewrite !nth_updn_ne by congruence. rewrite updn_comm by congruence. reflexivity.
Qed.

(** ** extension to even sizes, on a tensor [b; s...] *)
Definition evop (m : mode) (s : list nat) (X : list nat -> K) (ks : list nat) : K := ext_get m s X (map Z.of_nat ks).
Definition E (m : mode) t : tensor K := core (map even_up) (evop m) t.
Definition padable (m : mode) (n : nat) : Prop :=
  match m with Mzero => True | Mreflect => (0 < n)%nat /\ ((n mod 2 = 1)%nat -> (1 < n)%nat) | _ => (0 < n)%nat end.
Definition evpads (s : list nat) : list (nat * nat) := map (fun n => (0%nat, (n mod 2)%nat)) s.

Lemma shp_E m t b s : shp t = b :: s -> shp (E m t) = b :: map even_up s.
Proof. intros Hs. unfold E. rewrite shp_core, Hs. reflexivity. Qed.
Lemma wf_E m t : wf (E m t). Proof. apply wf_core. Qed.
Lemma ttag_E m t : ttag (E m t) = ttag t. Proof. reflexivity. Qed.
Lemma valid_even_up is s : valid is s -> valid is (map even_up s).
Proof. intros H. induction H as [|i n is s Hi H IH]; cbn [map]; constructor; [unfold even_up; lia|exact IH]. Qed.
(** it agrees with t where t is defined *)
Lemma E_agrees m t b s idx : shp t = b :: s -> valid idx (shp t) -> get (E m t) idx = get t idx.
Proof.
  intros Hs Hv. rewrite Hs in Hv. destruct idx as [|i is]; [inversion Hv|]. inversion Hv as [|? ? ? ? Hi His]; subst.
  unfold E. rewrite get_core; rewrite Hs; cbn [hd tl]; [|exact Hi|apply valid_even_up, His]. unfold evop. rewrite ext_get_id by exact His. reflexivity.
Qed.
Lemma even_up_id n : (n mod 2 = 0)%nat -> even_up n = n.
Proof. unfold even_up. lia. Qed.
Lemma even_up_even n : (even_up n mod 2 = 0)%nat.
Proof. unfold even_up. lia. Qed.
Lemma map_even_up_id s : Forall (fun n => (n mod 2 = 0)%nat) s -> map even_up s = s.
Proof. induction 1 as [|n s Hn H IH]; cbn; [reflexivity|]. rewrite IH, even_up_id by exact Hn. reflexivity. Qed.
Lemma E_even m t b s : wf t -> shp t = b :: s -> Forall (fun n => (n mod 2 = 0)%nat) s -> E m t = t.
Proof.
  intros Hw Hs He. assert (Hsh : shp (E m t) = shp t) by (rewrite (shp_E m t b s Hs), map_even_up_id by exact He; symmetry; exact Hs).
  apply t_ext; [apply wf_E|exact Hw|reflexivity|exact Hsh|]. intros idx Hv. rewrite Hsh in Hv. apply (E_agrees m t b s); assumption.
Qed.
Lemma padable_padok m n : padable m n -> padok m n (0%nat, (n mod 2)%nat).
Proof. destruct m; cbn; intros; lia. Qed.
Lemma padable_extendable m n : padable m n -> ((n mod 2 = 1)%nat -> (0 < n)%nat -> m = Mreflect -> (1 < n)%nat).
Proof. destruct m; cbn; intros; try congruence; lia. Qed.
Lemma F2_pads m s : Forall (padable m) s -> Forall2 (padok m) s (evpads s).
Proof. induction 1 as [|n s Hn H IH]; cbn; constructor; [apply padable_padok, Hn|exact IH]. Qed.
Lemma pad_shape_ev s : pad_shape s (evpads s) = map even_up s.
Proof. unfold pad_shape, evpads. induction s as [|n s IH]; cbn [map map2]; [reflexivity|]. rewrite IH. reflexivity. Qed.
Lemma pad_zs_ev s : forall is, List.length is = List.length s -> pad_zs is (evpads s) = map Z.of_nat is.
Proof.
  unfold pad_zs, evpads. induction s as [|n s IH]; intros [|i is] H; try discriminate; cbn [map map2 fst]; [reflexivity|].
  rewrite IH by (cbn in H; lia). f_equal. lia.
Qed.
Lemma E_pad m t b s : wf t -> shp t = b :: s -> (1 <= List.length s <= 3)%nat -> Forall (padable m) s ->
  pad_dispatch t (rev (evpads s)) (emode m) = Ok (E m t).
Proof.
  intros Hw Hs Hl Hp. rewrite (pad_dispatch_ok m t [b] s (evpads s)); auto.
  - f_equal. unfold padded, E, core, evpads. rewrite map_length. fold (evpads s). unfold rank. rewrite Hs. cbn [List.length hd tl].
    replace (S (List.length s) - List.length s)%nat with 1%nat by lia. cbn [firstn skipn app]. rewrite pad_shape_ev. apply make_ext.
    intros idx Hv. destruct idx as [|i is]; [inversion Hv|]. inversion Hv as [|? ? ? ? Hi His]; subst. cbn [firstn skipn app hd tl]. unfold evop.
    rewrite pad_zs_ev; [reflexivity|]. rewrite (valid_length _ _ His), map_length. reflexivity.
  - unfold evpads. rewrite map_length. reflexivity.
  - unfold evpads. rewrite map_length. exact Hl.
  - apply F2_pads, Hp.
Qed.
(** the same with a channel axis, and one spatial axis *)
Lemma E_pad_unsq m t b n : wf t -> shp t = [b; n] -> padable m n ->
  exists q, pad_dispatch (unsqueeze t 1) [(0%nat, (n mod 2)%nat)] (emode m) = Ok q /\ squeeze q 1 = E m t.
Proof.
  intros Hw Hs Hp.
  assert (Hu : shp (unsqueeze t 1) = [b; 1%nat] ++ [n]) by (unfold unsqueeze; cbn [shp]; rewrite Hs; reflexivity).
  assert (Hwu : wf (unsqueeze t 1)).
  { unfold wf in *. rewrite Hu. unfold unsqueeze. cbn [dat]. rewrite Hw, Hs. cbn [app]. rewrite !prodl_cons, prodl_nil. lia. }
  pose proof (pad_dispatch_ok m (unsqueeze t 1) [b; 1%nat] [n] [(0%nat, (n mod 2)%nat)] Hwu Hu eq_refl) as HP. cbn [rev app List.length] in HP.
  rewrite HP; [|right; reflexivity|lia|constructor; [apply padable_padok, Hp|constructor]].
  eexists. split; [reflexivity|].
  assert (Hsp : shp (padded m [(0%nat, (n mod 2)%nat)] (unsqueeze t 1)) = [b; 1%nat; even_up n]).
  { unfold padded. rewrite shp_make. unfold rank. rewrite Hu. reflexivity. }
  assert (Hrp : rank (padded m [(0%nat, (n mod 2)%nat)] (unsqueeze t 1)) = 3%nat) by (unfold rank; rewrite Hsp; reflexivity).
  assert (Hsq : shp (squeeze (padded m [(0%nat, (n mod 2)%nat)] (unsqueeze t 1)) 1) = [b; even_up n]) by (apply (shp_squeeze_app _ [b] [even_up n]); [exact Hsp|reflexivity]).
  apply t_ext.
  - apply wf_squeeze; [apply wf_make|lia].
  - apply wf_E.
  - rewrite ttag_squeeze. reflexivity.
  - rewrite Hsq, (shp_E m t b [n] Hs). reflexivity.
  - intros idx Hv. rewrite Hsq in Hv. destruct idx as [|i [|k [|? ?]]]; inversion Hv as [|? ? ? ? Hi Hv']; subst; inversion Hv' as [|? ? ? ? Hk Hv'']; subst; [|inversion Hv''].
    change [i; k] with ([i] ++ [k]). rewrite (get_squeeze_app _ [b] [even_up n] 1 [i] [k]); auto. cbn [app].
    unfold padded. assert (Ev : valid [i; 0%nat; k] (firstn (rank (unsqueeze t 1) - 1) (shp (unsqueeze t 1)) ++ pad_shape (skipn (rank (unsqueeze t 1) - 1) (shp (unsqueeze t 1))) [(0%nat, (n mod 2)%nat)])).
    { unfold rank. rewrite Hu. cbn. repeat (constructor; try assumption); lia. }
    cbn [List.length]. rewrite get_make by exact Ev. unfold rank. rewrite Hu. cbn [app List.length Nat.sub firstn skipn].
    unfold E. rewrite get_core; rewrite Hs; cbn [hd tl]; [|exact Hi|repeat constructor; exact Hk]. unfold evop. cbn [pad_zs map map2 fst].
    replace (Z.of_nat k - Z.of_nat 0)%Z with (Z.of_nat k) by lia.
    unfold ext_get. destruct (ext_idxs m [n] [Z.of_nat k]) as [is|] eqn:Ex; [|reflexivity].
    assert (exists q, is = [q]) as [q ->].
    { cbn in Ex. destruct (ext_idx m n (Z.of_nat k)); [|discriminate]. injection Ex as <-. eauto. }
    cbn [app]. change [i; 0%nat; q] with ([i] ++ 0%nat :: [q]). rewrite get_unsqueeze; [reflexivity|reflexivity|unfold rank; rewrite Hs; cbn; lia].
Qed.
End MP.
