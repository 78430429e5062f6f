(** C68: coefficients are local.  Away from the borders a coefficient of level j at position k is computed from the samples of
    one window, whatever the length of the signal, the boundary mode and the values elsewhere; it moves with the signal. *)
From Coq Require Import List Arith ZArith Lia Bool String.
From Coq Require Import ZifyNat ZifyBool.
From Verif Require Import Base Sums Tensor TensorFacts Util Perm Plumb Accept Spec Conv1 PadFacts CoreFacts Analysis AnalysisInv PRKernel Synthesis Filters Lin Wave1 Conv2 Conv3 Spec2 WaveN Sep SpecSep Unified PropsNd Examples.
Import ListNotations.
Ltac Zify.zify_post_hook ::= Z.div_mod_to_equations.

(** ** Specification *)
(** the samples 2^j k - (2^j - 1)(L - 2), ..., 2^j (k + 1) - 1, on every axis *)
Definition in_window (L j : nat) (ks ps : list nat) : Prop :=
  Forall2 (fun k p => 2 ^ j * k <= p + (2 ^ j - 1) * (L - 2) /\ p < 2 ^ j * (k + 1)) ks ps.
(** that window lies inside an array of sizes s *)
Definition inside (L j : nat) (ks s : list nat) : Prop :=
  Forall2 (fun k n => (2 ^ j - 1) * (L - 2) <= 2 ^ j * k /\ 2 ^ j * (k + 1) <= n) ks s.
Definition shifted (c : nat) (ps sg : list nat) : list nat := map2 (fun p s => p + c * s) ps sg.

Section Loc.
Context {K : CRing}.
Implicit Types x y : tensor K.
(** x on the window of ks (axes nax, other indices from idx) equals x' on that window moved by 2^j sg samples *)
Definition same_window (L j : nat) (ks sg nax idx : list nat) x (nax' idx' : list nat) (x' : tensor K) : Prop :=
  forall ps, in_window L j ks ps -> get x (upds nax ps idx) = get x' (upds nax' (shifted (2 ^ j) ps sg) idx').
(** the level-j coefficients y of x and y' of x' correspond wherever the signals do *)
Definition same_inside (L j : nat) (nax : list nat) x y (nax' : list nat) (x' y' : tensor K) : Prop :=
  forall ks sg idx idx', List.length sg = List.length ks ->
    fib_ok nax idx (shp x) -> fib_ok nax' idx' (shp x') ->
    inside L j ks (gather nax 0 (shp x)) -> inside L j (shifted 1 ks sg) (gather nax' 0 (shp x')) ->
    same_window L j ks sg nax idx x nax' idx' x' ->
    valid (upds nax ks idx) (shp y) /\ valid (upds nax' (shifted 1 ks sg) idx') (shp y') /\
    get y (upds nax ks idx) = get y' (upds nax' (shifted 1 ks sg) idx').

(** ** Proof *)
Lemma ext_in m n z : (0 <= z < Z.of_nat n)%Z -> ext_idx m n z = Some (Z.to_nat z).
Proof.
  intros Hz. destruct m; cbn [ext_idx].
  - destruct (Z.leb_spec 0 z); [|lia]. destruct (Z.ltb_spec z (Z.of_nat n)); [|lia]. reflexivity.
  - f_equal. f_equal. lia.
  - rewrite Z.mod_small by lia. reflexivity.
  - rewrite Z.mod_small by lia. destruct (Z.ltb_spec z (Z.of_nat n)); [reflexivity|lia].
  - destruct (Z.eq_dec (Z.of_nat n) 1) as [E|E].
    + assert (z = 0)%Z by lia. subst z. rewrite E. reflexivity.
    + destruct (Z.lt_ge_cases z (2 * Z.of_nat n - 2)); [|exfalso; lia]. rewrite Z.mod_small by lia. destruct (Z.ltb_spec z (Z.of_nat n)); [reflexivity|lia].
Qed.
Lemma dwt_inner fs m L nax idx y ks : 2 <= L -> good_axes (rank y) nax -> List.length fs = List.length nax -> Forall (fun f : list K => List.length f = L) fs ->
  fib_ok nax idx (shp y) -> Forall2 (fun k n => L - 2 <= 2 * k /\ 2 * k + 2 <= n) ks (gather nax 0 (shp y)) ->
  valid (upds nax ks idx) (shp (dwt_axes fs m nax y)) /\
  get (dwt_axes fs m nax y) (upds nax ks idx) =
    sumI (map (@List.length K) fs) (fun js => kmul (taps fs js) (get y (upds nax (map2 (fun k j => 2 * k + 1 - j) ks js) idx))).
Proof.
  intros HL Hg Hf Hfs Hi Hk. pose proof Hg as [Hnd Hin].
  assert (Lk : List.length ks = List.length nax) by (apply F2_len in Hk; rewrite Hk; unfold gather; rewrite map_length; reflexivity).
  assert (V : valid (upds nax ks idx) (shp (dwt_axes fs m nax y))).
  { unfold dwt_axes, along_axes. rewrite shp_make. set (sz := map2 _ fs _). assert (Lz : List.length sz = List.length nax).
    { unfold sz. rewrite map2_length. unfold gather. rewrite map_length. lia. }
    apply fib_valid; [exact Hnd|rewrite upds_length; exact Hin|apply fib_ok_shape; exact Hi|].
    rewrite gather_upds by (auto; rewrite ?upds_length; exact Hin). unfold sz. clear - HL Hk Hfs Hf Lk. revert fs Hf Hfs Lk. revert nax Hk. 
    intros nax Hk. generalize dependent (gather nax 0 (shp y)). intros s Hk. revert nax. induction Hk as [|k n ks s Hkn Hk IH]; intros nax [|f fs] Hf Hfs Lk; try (destruct nax; discriminate); [constructor|].
    destruct nax as [|d nax]; [discriminate|]. cbn [map2]. constructor.
    - unfold dwt_len. rewrite (Forall_inv Hfs). lia.
    - apply (IH nax); [cbn in Hf; lia|exact (Forall_inv_tail Hfs)|cbn in Lk; lia]. }
  split; [exact V|]. unfold dwt_axes, along_axes. rewrite get_make by exact V. rewrite gather_upds by (auto; rewrite (proj1 Hi); exact Hin).
  unfold dwt_op. apply sumI_ext. intros js Hjs. f_equal. 
  assert (E : ext_idxs m (gather nax 0 (shp y)) (map2 (fun k j => (2 * Z.of_nat k + 1 - Z.of_nat j)%Z) ks js) = Some (map2 (fun k j => 2 * k + 1 - j) ks js)).
  { clear V. assert (Lf : List.length fs = List.length ks) by lia. clear Hf Lk Hg Hnd Hin Hi. revert fs js Hfs Lf Hjs. induction Hk as [|k n ks s Hkn Hk IH]; intros fs js Hfs Lf Hjs.
    - destruct fs; [|discriminate]. inversion Hjs; subst. reflexivity.
    - destruct fs as [|f fs]; [discriminate|]. inversion Hjs as [|j ? js' ? Hj Hjs']; subst. cbn [map2 ext_idxs]. pose proof (Forall_inv Hfs) as Hlf. cbn in Hlf.
      rewrite ext_in by lia. rewrite (IH fs js' (Forall_inv_tail Hfs)) by (cbn in Lf; auto; lia). f_equal. f_equal. lia. }
  unfold ext_get. rewrite E. f_equal. apply upds_upds; [exact Hnd|]. rewrite map2_length. apply F2_len in Hjs. rewrite map_length in Hjs. lia.
Qed.
Lemma len_after_ge L j n : 2 <= L -> n <= 2 ^ j * len_after L j n.
Proof.
  intros HL. induction j as [|j IH]; [cbn; lia|]. rewrite len_after_S.
  set (u := len_after L j n) in *. assert (u <= 2 * dwt_len L u) by (unfold dwt_len; lia). cbn [Nat.pow]. set (M := 2 ^ j) in *. nia.
Qed.
Lemma inside_len L j ks s : inside L j ks s -> List.length ks = List.length s.
Proof. apply F2_len. Qed.
Lemma shifted_len c ps sg : List.length sg = List.length ps -> List.length (shifted c ps sg) = List.length ps.
Proof. intros H. unfold shifted. rewrite map2_length. lia. Qed.
Lemma shifted_double ps sg : shifted 1 ps (map (fun s => 2 * s) sg) = shifted 2 ps sg.
Proof. unfold shifted. revert sg. induction ps as [|p ps IH]; intros [|s sg]; cbn [map map2]; try reflexivity. f_equal; [lia|apply IH]. Qed.
Lemma shifted_pow c ps sg : shifted c ps (map (fun s => 2 * s) sg) = shifted (2 * c) ps sg.
Proof. unfold shifted. revert sg. induction ps as [|p ps IH]; intros [|s sg]; cbn [map map2]; try reflexivity. f_equal; [nia|apply IH]. Qed.
(** one level down: the positions used by position ks *)
Definition down (ks js : list nat) : list nat := map2 (fun k i => 2 * k + 1 - i) ks js.
Lemma down_shift L ks sg js N : 2 <= L -> Forall (fun i => i < L) js -> Forall (fun k => L - 2 <= 2 * k) ks -> List.length ks = N -> List.length sg = N -> List.length js = N ->
  down (shifted 1 ks sg) js = shifted 1 (down ks js) (map (fun s => 2 * s) sg).
Proof.
  intros HL. revert ks sg js. induction N as [|N IH]; intros [|k ks] [|s sg] [|i js] Hj Hk H1 H2 H3; try discriminate; [reflexivity|].
  unfold down, shifted in *. cbn [map map2]. pose proof (Forall_inv Hj). pose proof (Forall_inv Hk). cbn in *. f_equal; [lia|].
  apply IH; [exact (Forall_inv_tail Hj)|exact (Forall_inv_tail Hk)|lia..].
Qed.
Lemma pow_pos j : 1 <= 2 ^ j. Proof. induction j; cbn; lia. Qed.
Lemma inside_S L j ks s : 2 <= L -> inside L (S j) ks s -> Forall (fun k => L - 2 <= 2 * k) ks /\
  (forall js, Forall (fun i => i < L) js -> List.length js = List.length ks -> inside L j (down ks js) s).
Proof.
  intros HL H. unfold inside in *. induction H as [|k n ks s Hk H [IH1 IH2]].
  - split; [constructor|]. intros [|] _ E; [constructor|discriminate].
  - cbn [Nat.pow] in Hk. pose proof (pow_pos j) as HM. set (M := 2 ^ j) in *. assert (L - 2 <= 2 * k) by nia. split; [constructor; assumption|].
    intros [|i js] Hj E; [discriminate|]. unfold down. cbn [map2]. pose proof (Forall_inv Hj) as Hi. cbn in Hi. constructor; [|apply IH2; [exact (Forall_inv_tail Hj)|cbn in E; lia]].
    assert (2 * k + 1 - i + (i - 1) >= 2 * k) by lia. destruct Hk as [A B]. split; [|nia]. assert (2 * k + 2 - L <= 2 * k + 1 - i) by lia. nia.
Qed.
Lemma window_S L j ks js ps : 2 <= L -> Forall (fun k => L - 2 <= 2 * k) ks -> Forall (fun i => i < L) js -> List.length js = List.length ks -> in_window L j (down ks js) ps -> in_window L (S j) ks ps.
Proof.
  intros HL. unfold in_window. revert js ps. induction ks as [|k ks IH]; intros [|i js] ps Hk Hj E H; try discriminate.
  - inversion H; subst. constructor.
  - unfold down in H. cbn [map2] in H. inversion H as [|? p ? ps' Hp H']; subst. pose proof (Forall_inv Hj) as Hi. pose proof (Forall_inv Hk) as Hk0. cbn in Hi, Hk0.
    constructor; [|apply (IH js); [exact (Forall_inv_tail Hk)|exact (Forall_inv_tail Hj)|cbn in E; lia|exact H']].
    cbn [Nat.pow]. pose proof (pow_pos j) as HM. set (M := 2 ^ j) in *. destruct Hp as [A B]. assert (2 * k + 2 - L <= 2 * k + 1 - i <= 2 * k + 1) by lia. split; nia.
Qed.
Lemma inside_sizes L j ks s : 2 <= L -> inside L (S j) ks s -> Forall2 (fun k n => L - 2 <= 2 * k /\ 2 * k + 2 <= n) ks (map (len_after L j) s).
Proof.
  intros HL H. unfold inside in H. induction H as [|k n ks s Hk H IH]; [constructor|]. cbn [map]. constructor; [|exact IH].
  pose proof (len_after_ge L j n HL) as G. cbn [Nat.pow] in Hk. pose proof (pow_pos j) as HM. set (M := 2 ^ j) in *. split; nia.
Qed.
Lemma approx_fib lo m nax j x idx : fib_ok nax idx (shp x) -> fib_ok nax idx (shp (approx lo m nax j x)).
Proof. intros H. induction j as [|j IH]; [exact H|]. change (fib_ok nax idx (shp (dwt_axes (repeat lo (List.length nax)) m nax (approx lo m nax j x)))). unfold dwt_axes, along_axes. rewrite shp_make. apply fib_ok_shape. exact IH. Qed.
(** a level computed with arbitrary filters from the approximation of level j *)
Lemma step_local lo fs m m' L j nax x nax' (x' : tensor K) : 2 <= L -> good_axes (rank x) nax -> good_axes (rank x') nax' -> List.length nax' = List.length nax ->
  List.length lo = L -> List.length fs = List.length nax -> Forall (fun f : list K => List.length f = L) fs ->
  same_inside L j nax x (approx lo m nax j x) nax' x' (approx lo m' nax' j x') ->
  same_inside L (S j) nax x (dwt_axes fs m nax (approx lo m nax j x)) nax' x' (dwt_axes fs m' nax' (approx lo m' nax' j x')).
Proof.
  intros HL Hg Hg' Hn Hlo Hf Hfs IH ks sg idx idx' Hsg Hi Hi' Hin Hin' Hw.
  assert (Lk : List.length ks = List.length nax) by (rewrite (inside_len _ _ _ _ Hin); unfold gather; apply map_length).
  destruct (inside_S L j ks _ HL Hin) as [Hk Hd]. destruct (inside_S L j (shifted 1 ks sg) _ HL Hin') as [Hk' Hd'].
  assert (Ls : List.length (shifted 1 ks sg) = List.length ks) by (apply shifted_len; exact Hsg).
  destruct (dwt_inner fs m L nax idx (approx lo m nax j x) ks) as [V G]; auto; [rewrite approx_rank; exact Hg|apply approx_fib; exact Hi|rewrite (approx_sizes lo m L) by auto; apply inside_sizes; assumption|].
  destruct (dwt_inner fs m' L nax' idx' (approx lo m' nax' j x') (shifted 1 ks sg)) as [V' G']; auto; [rewrite approx_rank; exact Hg'|lia|apply approx_fib; exact Hi'|rewrite (approx_sizes lo m' L) by auto; apply inside_sizes; assumption|].
  split; [exact V|]. split; [exact V'|]. rewrite G, G'. apply sumI_ext. intros js Hjs. f_equal.
  assert (Hj : Forall (fun i => i < L) js).
  { clear - Hjs Hfs. remember (map (@List.length K) fs) as ls eqn:E. revert fs Hfs E. induction Hjs as [|i l js ls Hil Hjs IH]; intros fs Hfs E; [constructor|].
    destruct fs as [|f fs]; [discriminate|]. injection E as -> ->. pose proof (Forall_inv Hfs) as Hl. cbn in Hl. constructor; [lia|]. apply (IH fs); [exact (Forall_inv_tail Hfs)|reflexivity]. }
  assert (Lj : List.length js = List.length ks) by (apply F2_len in Hjs; rewrite map_length in Hjs; lia).
  change (map2 (fun k i => 2 * k + 1 - i) (shifted 1 ks sg) js) with (down (shifted 1 ks sg) js). change (map2 (fun k i => 2 * k + 1 - i) ks js) with (down ks js).
  assert (Ed : down (shifted 1 ks sg) js = shifted 1 (down ks js) (map (fun s => 2 * s) sg)) by (apply (down_shift L ks sg js (List.length ks)); auto).
  rewrite Ed. apply IH; auto.
  - rewrite map_length. unfold down. rewrite map2_length. lia.
  - rewrite <- Ed. apply Hd'; [exact Hj|lia].
  - intros ps Hp. rewrite shifted_pow. apply (Hw ps). apply (window_S L j ks js); auto.
Qed.
Lemma window_0 L ks ps : in_window L 0 ks ps -> ps = ks.
Proof. unfold in_window. intros H. induction H as [|k p ks ps Hp H IH]; [reflexivity|]. f_equal; [cbn in Hp; lia|exact IH]. Qed.
Lemma window_0_refl L ks : in_window L 0 ks ks.
Proof. unfold in_window. induction ks; constructor; [cbn; lia|assumption]. Qed.
Lemma inside_0 L ks s : inside L 0 ks s -> valid ks s.
Proof. unfold inside, valid. intros H. induction H as [|k n ks s Hk H IH]; constructor; [cbn in Hk; lia|exact IH]. Qed.
Lemma approx_local lo m m' L j nax x nax' (x' : tensor K) : 2 <= L -> good_axes (rank x) nax -> good_axes (rank x') nax' -> List.length nax' = List.length nax ->
  List.length lo = L -> same_inside L j nax x (approx lo m nax j x) nax' x' (approx lo m' nax' j x').
Proof.
  intros HL Hg Hg' Hn Hlo. induction j as [|j IH].
  - intros ks sg idx idx' Hsg Hi Hi' Hin Hin' Hw. cbn [approx Nat.iter]. split; [|split].
    + apply fib_valid; [exact (proj1 Hg)|exact (proj2 Hg)|exact Hi|apply (inside_0 L); exact Hin].
    + apply fib_valid; [exact (proj1 Hg')|exact (proj2 Hg')|exact Hi'|apply (inside_0 L); exact Hin'].
    + exact (Hw ks (window_0_refl L ks)).
  - change (same_inside L (S j) nax x (dwt_axes (repeat lo (List.length nax)) m nax (approx lo m nax j x)) nax' x' (dwt_axes (repeat lo (List.length nax')) m' nax' (approx lo m' nax' j x'))).
    rewrite Hn. apply step_local; auto; [apply repeat_length|]. apply Forall_forall. intros f Hf. apply repeat_spec in Hf. subst. reflexivity.
Qed.
Lemma detail_local lo fs m m' L j nax x nax' (x' : tensor K) : 2 <= L -> good_axes (rank x) nax -> good_axes (rank x') nax' -> List.length nax' = List.length nax ->
  List.length lo = L -> List.length fs = List.length nax -> Forall (fun f : list K => List.length f = L) fs -> 1 <= j ->
  same_inside L j nax x (detail lo fs m nax j x) nax' x' (detail lo fs m' nax' j x').
Proof.
  intros HL Hg Hg' Hn Hlo Hf Hfs Hj. destruct j as [|j]; [lia|]. unfold detail. replace (S j - 1) with j by lia. apply step_local; auto. apply approx_local; auto.
Qed.
End Loc.
