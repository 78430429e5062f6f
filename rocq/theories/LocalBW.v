(** C69, second part: the levels of the boundary-wavelet transforms are complete filter rows away from the borders. *)
From Coq Require Import List Arith ZArith Lia Bool String Ring.
From Coq Require Import ZifyNat ZifyBool.
From Verif Require Import Base Sums Tensor TensorFacts Util Perm Plumb Accept Spec Conv1 PadFacts CoreFacts Analysis AnalysisInv PRKernel Synthesis Filters Lin Wave1 Local Spec2 WaveN Sparse SpecMat SpecMatN Boundary PropsOrth Mat1 Mat1Facts LocalM.
Import ListNotations.
Ltac Zify.zify_post_hook ::= Z.div_mod_to_equations.
Local Arguments Nat.div : simpl never.
Local Arguments Nat.modulo : simpl never.

Section LB.
Context {K : CRing}.
Add Ring Kring : (cr_th K).
Local Open Scope nat_scope.
Implicit Types x y z : tensor K.
Definition bank_of (lo hi : list K) (k : list bool) : list (list K) := map (fun d : bool => if d then hi else lo) k.
(** the rows of M that do not stick out are products of shifted filters *)
Definition rows_ok (M : list nat -> list nat -> list nat -> K) (L dim : nat) (lo hi : list K) : Prop :=
  forall k s ks js, List.length k = dim -> List.length s = dim -> Forall (fun n => L <= n /\ n mod 2 = 0) s -> complete L (L / 2) ks s -> valid js s ->
    M s (band_rows k s ks) js = row_prod L (bank_of lo hi k) ks js.
Lemma even_up_bounds n : n <= even_up n /\ even_up n mod 2 = 0 /\ even_up n <= S n.
Proof. unfold even_up. lia. Qed.
Lemma complete_up L ks s : 2 <= L -> L mod 2 = 0 -> complete L (L / 2) ks s -> complete L (L / 2) ks (map even_up s) /\ Forall (fun n => L <= n /\ n mod 2 = 0) (map even_up s) /\ valid ks (map (fun n => even_up n / 2) s).
Proof.
  intros HL He H. unfold complete in *. induction H as [|k n ks s Hk H (I1 & I2 & I3)]; cbn [map]; [repeat split; constructor|].
  pose proof (even_up_bounds n). split; [|split]; constructor; auto; lia.
Qed.
Lemma complete_in m L ks s js : 2 <= L -> L mod 2 = 0 -> complete L (L / 2) ks s -> Forall (fun i => i < L) js -> List.length js = List.length ks ->
  ext_idxs m s (map Z.of_nat (down_at (L / 2) ks js)) = Some (down_at (L / 2) ks js).
Proof.
  intros HL He H. unfold complete in H. revert js. induction H as [|k n ks s Hk H IH]; intros [|i js] Hj E; try discriminate; [reflexivity|].
  unfold down_at in *. cbn [map2 map ext_idxs]. pose proof (Forall_inv Hj) as Hi. cbn in Hi. rewrite ext_in by lia. rewrite (IH js (Forall_inv_tail Hj)) by (cbn in E; lia). f_equal. f_equal. lia.
Qed.
Lemma bank_of_len lo hi L k : List.length lo = L -> List.length hi = L -> Forall (fun f : list K => List.length f = L) (bank_of lo hi k).
Proof. intros H1 H2. apply Forall_forall. intros f Hf. apply in_map_iff in Hf as ([|] & <- & _); assumption. Qed.
Lemma band_chain M m L lo hi nax k x y : 2 <= L -> L mod 2 = 0 -> List.length lo = L -> List.length hi = L -> rows_ok M L (List.length nax) lo hi -> List.length k = List.length nax ->
  rank y = rank x -> good_axes (rank x) nax -> (forall idx, fib_ok nax idx (shp x) -> fib_ok nax idx (shp y)) ->
  chain L (L / 2) (bank_of lo hi k) nax x y (bwn_band M m nax k y).
Proof.
  intros HL He H1 H2 HM Hk Hr Hg Hfib idx ks Hi0 Hc. pose proof (Hfib idx Hi0) as Hi. rewrite <- Hr in Hg. pose proof Hg as [Hnd Hin].
  set (s := gather nax 0 (shp y)) in *. assert (Ls : List.length s = List.length nax) by (unfold s, gather; apply map_length).
  assert (Lk : List.length ks = List.length nax) by (apply F2_len in Hc; congruence).
  destruct (complete_up L ks s HL He Hc) as (U1 & U2 & U3).
  assert (V : valid (upds nax ks idx) (shp (bwn_band M m nax k y))).
  { unfold bwn_band, along_axes. rewrite shp_make. fold s. apply fib_valid; [exact Hnd|rewrite upds_length; exact Hin|apply fib_ok_shape; exact Hi|].
    rewrite gather_upds by (auto; rewrite ?map_length; auto). exact U3. }
  split; [exact V|]. unfold bwn_band, along_axes. rewrite get_make by exact V. fold s. rewrite gather_upds by (auto; rewrite (proj1 Hi); exact Hin).
  unfold bwn_op. set (X := fun is => get y (upds nax is (upds nax ks idx))).
  transitivity (sumI (map even_up s) (fun js => kmul (row_prod L (bank_of lo hi k) ks js) (ext_get m s X (map Z.of_nat js)))).
  - apply sumI_ext. intros js Hjs. f_equal. apply HM; auto. rewrite map_length. exact Ls.
  - rewrite (filter_sums L (bank_of lo hi k) ks (map even_up s) (fun js => ext_get m s X (map Z.of_nat js))); auto; [|apply bank_of_len; auto|unfold bank_of; rewrite map_length; congruence].
    apply sumI_ext. intros js Hjs. f_equal.
    assert (Hj : Forall (fun i => i < L) js /\ List.length js = List.length ks).
    { pose proof (bank_of_len lo hi L k H1 H2) as Hb. assert (Lb : List.length (bank_of lo hi k) = List.length ks) by (unfold bank_of; rewrite map_length; congruence).
      clear - Hjs Hb Lb. split; [|apply F2_len in Hjs; rewrite map_length in Hjs; lia].
      generalize dependent (bank_of lo hi k). intros fs. revert ks. remember (map (@List.length K) fs) as ls eqn:E. intros ks Hjs Hb Lb. clear ks Lb. revert fs E Hb.
      induction Hjs as [|i l js ls Hil Hjs IH]; intros fs E Hb; [constructor|]. destruct fs as [|f fs]; [discriminate|]. injection E as -> ->. pose proof (Forall_inv Hb) as Hl. cbn in Hl. constructor; [lia|].
      apply (IH fs); [reflexivity|exact (Forall_inv_tail Hb)]. }
    destruct Hj as [Hj Lj]. unfold ext_get. rewrite (complete_in m L ks s js HL He Hc Hj Lj). unfold X. f_equal. apply upds_upds; [exact Hnd|]. unfold down_at. rewrite map2_length. lia.
Qed.
Lemma band_rank M m nax k x : rank (bwn_band M m nax k x) = rank x.
Proof. unfold rank, bwn_band, along_axes. rewrite shp_make, upds_length. reflexivity. Qed.
Lemma bapprox_rank M m nax j x : rank (bwn_approx M m nax j x) = rank x.
Proof. induction j as [|j IH]; [reflexivity|]. change (bwn_approx M m nax (S j) x) with (bwn_band M m nax (repeat false (List.length nax)) (bwn_approx M m nax j x)). rewrite band_rank. exact IH. Qed.
Lemma bapprox_fib M m nax j x idx : fib_ok nax idx (shp x) -> fib_ok nax idx (shp (bwn_approx M m nax j x)).
Proof.
  intros H. induction j as [|j IH]; [exact H|]. change (bwn_approx M m nax (S j) x) with (bwn_band M m nax (repeat false (List.length nax)) (bwn_approx M m nax j x)).
  unfold bwn_band, along_axes. rewrite shp_make. apply fib_ok_shape. exact IH.
Qed.
Lemma bapprox_sized M m nax j x : good_axes (rank x) nax -> sized j (gather nax 0 (shp x)) (gather nax 0 (shp (bwn_approx M m nax j x))).
Proof.
  intros Hg. induction j as [|j IH]; [apply sized_0|]. change (bwn_approx M m nax (S j) x) with (bwn_band M m nax (repeat false (List.length nax)) (bwn_approx M m nax j x)).
  apply (sized_step j _ _ _ IH). unfold bwn_band, along_axes. rewrite shp_make. set (y := bwn_approx M m nax j x).
  assert (Hg' : good_axes (rank y) nax) by (unfold y; rewrite bapprox_rank; exact Hg). rewrite gather_upds by (try apply Hg'; unfold gather; rewrite !map_length; reflexivity).
  generalize (gather nax 0 (shp y)). intros s. induction s as [|n s IHs]; cbn [map]; constructor; [|exact IHs]. pose proof (even_up_bounds n). lia.
Qed.

(** what a level of a transform is: a multilevel filter bank with offset o and level maps z_j(k) *)
Definition bank_like (L o : nat) (lo hi : list K) (nax : list nat) x (ap : nat -> tensor K) (dt : nat -> list bool -> tensor K) : Prop :=
  ap 0 = x /\ (forall j, sized j (gather nax 0 (shp x)) (gather nax 0 (shp (ap j)))) /\
  (forall j k, List.length k = List.length nax -> chain L o (bank_of lo hi k) nax x (ap j) (dt (S j) k)) /\ (forall j, dt (S j) (repeat false (List.length nax)) = ap (S j)).
Lemma bank_matches L o o' d lo hi nax x ap dt nax' (x' : tensor K) ap' dt' : 2 <= L -> 1 <= o < L -> 1 <= o' < L -> o = o' + d -> List.length lo = L -> List.length hi = L ->
  good_axes (rank x) nax -> good_axes (rank x') nax' -> List.length nax' = List.length nax ->
  bank_like L o lo hi nax x ap dt -> bank_like L o' lo hi nax' x' ap' dt' ->
  (forall j, matches L o o' d j nax x (ap j) nax' x' (ap' j)) /\ (forall j k, 1 <= j -> List.length k = List.length nax -> matches L o o' d j nax x (dt j k) nax' x' (dt' j k)).
Proof.
  intros HL Ho Ho' Hd H1 H2 Hg Hg' Hn (B1 & B2 & B3 & B4) (B1' & B2' & B3' & B4').
  assert (St : forall j k, List.length k = List.length nax -> matches L o o' d j nax x (ap j) nax' x' (ap' j) -> matches L o o' d (S j) nax x (dt (S j) k) nax' x' (dt' (S j) k)).
  { intros j k Hk IH. apply (gen_step L o o' d j (bank_of lo hi k) nax x (ap j) _ nax' x' (ap' j)); auto; [unfold bank_of; rewrite map_length; exact Hk|apply bank_of_len; auto|]. apply B3'. congruence. }
  assert (Ap : forall j, matches L o o' d j nax x (ap j) nax' x' (ap' j)).
  { induction j as [|j IH]; [rewrite B1, B1'; apply gen_base; assumption|]. rewrite <- (B4 j), <- (B4' j), Hn. apply St; [apply repeat_length|exact IH]. }
  split; [exact Ap|]. intros [|j] k Hj Hk; [lia|]. apply St; auto.
Qed.
Lemma boundary_bank M m L lo hi nax x : 2 <= L -> L mod 2 = 0 -> List.length lo = L -> List.length hi = L -> rows_ok M L (List.length nax) lo hi -> good_axes (rank x) nax ->
  bank_like L (L / 2) lo hi nax x (fun j => bwn_approx M m nax j x) (fun j k => bwn_band M m nax k (bwn_approx M m nax (j - 1) x)).
Proof.
  intros HL He H1 H2 HM Hg. split; [reflexivity|]. split; [intros j; apply bapprox_sized; exact Hg|]. split.
  - intros j k Hk. replace (S j - 1) with j by lia. apply band_chain; auto; [apply bapprox_rank|intros idx; apply bapprox_fib].
  - intros j. replace (S j - 1) with j by lia. reflexivity.
Qed.
Lemma bank_false lo hi n : bank_of lo hi (repeat false n) = repeat lo n.
Proof. unfold bank_of. induction n as [|n IH]; cbn; [reflexivity|]. f_equal. exact IH. Qed.
Lemma padded_bank m L lo hi nax x : 2 <= L -> List.length lo = L -> List.length hi = L -> good_axes (rank x) nax ->
  bank_like L 1 lo hi nax x (fun j => approx lo m nax j x) (fun j k => detail lo (bank_of lo hi k) m nax j x).
Proof.
  intros HL H1 H2 Hg. split; [reflexivity|]. split; [intros j; apply (approx_sized lo m L); auto|]. split.
  - intros j k Hk. apply detail_chain; auto; [unfold bank_of; rewrite map_length; exact Hk|apply bank_of_len; auto].
  - intros j. unfold detail. replace (S j - 1) with j by lia. rewrite bank_false. reflexivity.
Qed.
End LB.
