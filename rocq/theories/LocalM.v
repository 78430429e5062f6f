(** C69: away from the borders the boundary-wavelet transforms are the plain filter bank.
    Generic part: two multilevel filter banks whose level maps use the samples 2k + o - i (i < L) of the level below. *)
From Coq Require Import List Arith ZArith Lia Bool String Ring.
From Coq Require Import ZifyNat ZifyBool.
From Verif Require Import Base Sums Tensor TensorFacts Util Perm Plumb Accept Spec Conv1 PadFacts CoreFacts Analysis AnalysisInv PRKernel Synthesis Filters Lin Wave1 Local Spec2 WaveN Sparse SpecMat Boundary PropsOrth Mat1 Mat1Facts.
Import ListNotations.
Ltac Zify.zify_post_hook ::= Z.div_mod_to_equations.

(** ** Specification *)
(** the samples that coefficient ks of level j is computed from: 2^j k - (2^j - 1)(L - 1 - o), ..., 2^j k + (2^j - 1) o *)
Definition window_at (L o j : nat) (ks ps : list nat) : Prop :=
  Forall2 (fun k p => 2 ^ j * k <= p + (2 ^ j - 1) * (L - 1 - o) /\ p <= 2 ^ j * k + (2 ^ j - 1) * o) ks ps.
(** the window lies inside an array of sizes s *)
Definition inside_at (L o j : nat) (ks s : list nat) : Prop :=
  Forall2 (fun k n => (2 ^ j - 1) * (L - 1 - o) <= 2 ^ j * k /\ 2 ^ j * k + (2 ^ j - 1) * o < n) ks s.
(** positions moved by d plus c times sg *)
Definition moved (d c : nat) (ps sg : list nat) : list nat := map2 (fun p s => p + d + c * s) ps sg.

Section Gen.
Context {K : CRing}.
Add Ring Kring : (cr_th K).
Local Open Scope K_scope.
Local Open Scope nat_scope.
Implicit Types x y z : tensor K.
(** y (level j of x; bank with offset o) and y' (level j of x'; bank with offset o') agree wherever x' is x moved by
    d + 2^j sg samples; the positions move by d + sg *)
Definition matches (L o o' d j : nat) (nax : list nat) x y (nax' : list nat) (x' y' : tensor K) : Prop :=
  forall ks sg idx idx', List.length sg = List.length ks ->
    fib_ok nax idx (shp x) -> fib_ok nax' idx' (shp x') ->
    inside_at L o j ks (gather nax 0 (shp x)) -> inside_at L o' j (moved d 1 ks sg) (gather nax' 0 (shp x')) ->
    (forall ps, window_at L o j ks ps -> get x (upds nax ps idx) = get x' (upds nax' (moved d (2 ^ j) ps sg) idx')) ->
    valid (upds nax ks idx) (shp y) /\ valid (upds nax' (moved d 1 ks sg) idx') (shp y') /\
    get y (upds nax ks idx) = get y' (upds nax' (moved d 1 ks sg) idx').

(** ** Proof *)
Definition down_at (o : nat) (ks js : list nat) : list nat := map2 (fun k i => 2 * k + o - i) ks js.
Definition complete (L o : nat) (ks s : list nat) : Prop := Forall2 (fun k n => L - 1 <= 2 * k + o /\ 2 * k + o < n) ks s.
(** z is one level above y *)
Definition chain (L o : nat) (fs : list (list K)) (nax : list nat) x y z : Prop :=
  forall idx ks, fib_ok nax idx (shp x) -> complete L o ks (gather nax 0 (shp y)) ->
    valid (upds nax ks idx) (shp z) /\
    get z (upds nax ks idx) = sumI (map (@List.length K) fs) (fun js => kmul (taps fs js) (get y (upds nax (down_at o ks js) idx))).
(** the sizes of level j *)
Definition sized (j : nat) (s t : list nat) : Prop := Forall2 (fun n nj => n <= 2 ^ j * nj) s t.
Lemma inside_complete L o j ks s t : 2 <= L -> 1 <= o < L -> sized j s t -> inside_at L o (S j) ks s ->
  complete L o ks t /\ (forall js, Forall (fun i => i < L) js -> List.length js = List.length ks -> inside_at L o j (down_at o ks js) s) /\
  (forall js ps, Forall (fun i => i < L) js -> List.length js = List.length ks -> window_at L o j (down_at o ks js) ps -> window_at L o (S j) ks ps).
Proof.
  intros HL Ho Hs H. revert t Hs. unfold inside_at in H. pose proof (pow_pos j) as HM.
  induction H as [|k n ks s Hk H IH]; intros t Hs.
  - inversion Hs; subst. split; [constructor|]. split; [intros [|] _ E; [constructor|discriminate]|]. intros [|] ps _ E; [|discriminate]. intros W. inversion W; subst. constructor.
  - inversion Hs as [|? nj ? t' Hn Hs']; subst. destruct (IH t' Hs') as (I1 & I2 & I3). clear IH. cbn [Nat.pow] in Hk. set (M := 2 ^ j) in *.
    assert (A : L - 1 <= 2 * k + o) by nia. assert (B : 2 * k + o < nj) by nia. split; [constructor; [split; assumption|exact I1]|]. split.
    + intros [|i js] Hj E; [discriminate|]. unfold down_at. cbn [map2]. pose proof (Forall_inv Hj) as Hi. cbn in Hi. constructor; [|apply I2; [exact (Forall_inv_tail Hj)|cbn in E; lia]].
      fold M. set (u := 2 * k + o - i). assert (u + (L - 1 - o) >= 2 * k) by (unfold u; lia). assert (u <= 2 * k + o) by (unfold u; lia). split; nia.
    + intros [|i js] ps Hj E W; [discriminate|]. unfold down_at in W. cbn [map2] in W. inversion W as [|? p ? ps' Hp W']; subst. pose proof (Forall_inv Hj) as Hi. cbn in Hi.
      constructor; [|apply (I3 js); [exact (Forall_inv_tail Hj)|cbn in E; lia|exact W']]. cbn [Nat.pow]. fold M in Hp |- *.
      set (u := 2 * k + o - i) in *. assert (u + (L - 1 - o) >= 2 * k) by (unfold u; lia). assert (u <= 2 * k + o) by (unfold u; lia). split; nia.
Qed.
Lemma moved_len d c ps sg : List.length sg = List.length ps -> List.length (moved d c ps sg) = List.length ps.
Proof. intros H. unfold moved. rewrite map2_length. lia. Qed.
Lemma moved_double d c ps sg : moved d c ps (map (fun s => 2 * s) sg) = moved d (2 * c) ps sg.
Proof. unfold moved. revert sg. induction ps as [|p ps IH]; intros [|s sg]; cbn [map map2]; try reflexivity. f_equal; [nia|apply IH]. Qed.
Lemma down_moved L o o' d ks sg js t : o = o' + d -> Forall (fun i => i < L) js -> complete L o ks t -> List.length sg = List.length ks -> List.length js = List.length ks ->
  down_at o' (moved d 1 ks sg) js = moved d 1 (down_at o ks js) (map (fun s => 2 * s) sg).
Proof.
  intros -> Hj Hc. unfold complete in Hc. revert sg js Hj. induction Hc as [|k n ks t Hk Hc IH]; intros [|s sg] [|i js] Hj H2 H3; try discriminate; [reflexivity|].
  unfold down_at, moved in *. cbn [map map2]. pose proof (Forall_inv Hj). cbn in *. f_equal; [lia|].
  apply IH; [exact (Forall_inv_tail Hj)|lia..].
Qed.
Lemma gen_step L o o' d j fs nax x y z nax' (x' y' z' : tensor K) : 2 <= L -> 1 <= o < L -> 1 <= o' < L -> o = o' + d ->
  List.length fs = List.length nax -> Forall (fun f : list K => List.length f = L) fs ->
  sized j (gather nax 0 (shp x)) (gather nax 0 (shp y)) -> sized j (gather nax' 0 (shp x')) (gather nax' 0 (shp y')) ->
  chain L o fs nax x y z -> chain L o' fs nax' x' y' z' ->
  matches L o o' d j nax x y nax' x' y' -> matches L o o' d (S j) nax x z nax' x' z'.
Proof.
  intros HL Ho Ho' Hd Hf Hfs Hs Hs' Hc Hc' IH ks sg idx idx' Hsg Hi Hi' Hin Hin' Hw.
  assert (Lk : List.length ks = List.length nax) by (apply F2_len in Hin; rewrite Hin; unfold gather; apply map_length).
  destruct (inside_complete L o j ks _ _ HL Ho Hs Hin) as (C1 & C2 & C3). destruct (inside_complete L o' j _ _ _ HL Ho' Hs' Hin') as (C1' & C2' & _).
  destruct (Hc idx ks Hi C1) as [V G]. destruct (Hc' idx' _ Hi' C1') as [V' G']. split; [exact V|]. split; [exact V'|]. rewrite G, G'. apply sumI_ext. intros js Hjs. f_equal.
  assert (Hj : Forall (fun i => i < L) js).
  { clear - Hjs Hfs. remember (map (@List.length K) fs) as ls eqn:E. revert fs Hfs E. induction Hjs as [|i l js ls Hil Hjs IH]; intros fs Hfs E; [constructor|].
    destruct fs as [|f fs]; [discriminate|]. injection E as -> ->. pose proof (Forall_inv Hfs) as Hl. cbn in Hl. constructor; [lia|]. apply (IH fs); [exact (Forall_inv_tail Hfs)|reflexivity]. }
  assert (Lj : List.length js = List.length ks) by (apply F2_len in Hjs; rewrite map_length in Hjs; lia).
  assert (Lm : List.length (moved d 1 ks sg) = List.length ks) by (apply moved_len; exact Hsg).
  assert (Ed : down_at o' (moved d 1 ks sg) js = moved d 1 (down_at o ks js) (map (fun s => 2 * s) sg)) by (apply (down_moved L o o' d ks sg js _ Hd Hj C1); auto).
  rewrite Ed. apply IH; auto.
  - rewrite map_length. unfold down_at. rewrite map2_length. lia.
  - rewrite <- Ed. apply C2'; [exact Hj|lia].
  - intros ps Hp. rewrite moved_double. apply (Hw ps). apply (C3 js); auto.
Qed.
Lemma at0 L o ks s : inside_at L o 0 ks s -> valid ks s.
Proof. unfold inside_at, valid. intros H. induction H as [|k n ks s Hk H IH]; constructor; [cbn in Hk; lia|exact IH]. Qed.
Lemma at0_refl L o ks : window_at L o 0 ks ks.
Proof. unfold window_at. induction ks; constructor; [cbn; lia|assumption]. Qed.
Lemma gen_base L o o' d nax x nax' (x' : tensor K) : good_axes (rank x) nax -> good_axes (rank x') nax' -> matches L o o' d 0 nax x x nax' x' x'.
Proof.
  intros Hg Hg' ks sg idx idx' Hsg Hi Hi' Hin Hin' Hw. split; [|split].
  - apply fib_valid; [exact (proj1 Hg)|exact (proj2 Hg)|exact Hi|apply (at0 L o); exact Hin].
  - apply fib_valid; [exact (proj1 Hg')|exact (proj2 Hg')|exact Hi'|apply (at0 L o'); exact Hin'].
  - exact (Hw ks (at0_refl L o ks)).
Qed.
Lemma sized_0 s : sized 0 s s.
Proof. unfold sized. induction s; constructor; [cbn; lia|assumption]. Qed.
Lemma sized_step j s t u : sized j s t -> Forall2 (fun n n' => n <= 2 * n') t u -> sized (S j) s u.
Proof.
  unfold sized. intros H. revert u. induction H as [|n nj s t Hn H IH]; intros u Hu; inversion Hu as [|? n' ? u' Hn' Hu']; subst; constructor; [|apply IH; exact Hu'].
  cbn [Nat.pow]. set (M := 2 ^ j) in *. nia.
Qed.

(** *** the padded transforms: offset 1 *)
Lemma dwt_chain fs m L nax x y : 2 <= L -> rank y = rank x -> good_axes (rank x) nax -> List.length fs = List.length nax -> Forall (fun f : list K => List.length f = L) fs ->
  (forall idx, fib_ok nax idx (shp x) -> fib_ok nax idx (shp y)) -> chain L 1 fs nax x y (dwt_axes fs m nax y).
Proof.
  intros HL Hr Hg Hf Hfs Hfib idx ks Hi Hc. apply (dwt_inner fs m L); auto; [rewrite Hr; exact Hg|].
  unfold complete in Hc. eapply F2_impl; [|exact Hc]. cbn. intros k n H. lia.
Qed.
Lemma approx_sized lo m L nax j x : 2 <= L -> good_axes (rank x) nax -> List.length lo = L -> sized j (gather nax 0 (shp x)) (gather nax 0 (shp (approx lo m nax j x))).
Proof.
  intros HL Hg Hlo. rewrite (approx_sizes lo m L) by auto. unfold sized. generalize (gather nax 0 (shp x)). intros s. induction s as [|n s IH]; cbn [map]; constructor; [apply len_after_ge; exact HL|exact IH].
Qed.
Lemma approx_chain lo m L nax j x : 2 <= L -> good_axes (rank x) nax -> List.length lo = L -> chain L 1 (repeat lo (List.length nax)) nax x (approx lo m nax j x) (approx lo m nax (S j) x).
Proof.
  intros HL Hg Hlo. change (approx lo m nax (S j) x) with (dwt_axes (repeat lo (List.length nax)) m nax (approx lo m nax j x)). apply dwt_chain; auto.
  - apply approx_rank.
  - apply repeat_length.
  - apply Forall_forall. intros f Hf. apply repeat_spec in Hf. subst. reflexivity.
  - intros idx. apply approx_fib.
Qed.
Lemma detail_chain lo fs m L nax j x : 2 <= L -> good_axes (rank x) nax -> List.length lo = L -> List.length fs = List.length nax -> Forall (fun f : list K => List.length f = L) fs ->
  chain L 1 fs nax x (approx lo m nax j x) (detail lo fs m nax (S j) x).
Proof.
  intros HL Hg Hlo Hf Hfs. unfold detail. replace (S j - 1) with j by lia. apply dwt_chain; auto; [apply approx_rank|intros idx; apply approx_fib].
Qed.

(** *** the boundary-wavelet transforms: offset L/2 *)
Lemma filter_sum (f : list K) L p N (G : nat -> K) : List.length f = L -> L - 1 <= p -> p < N ->
  sumf N (fun c => kmul (zget f (Z.of_nat p - Z.of_nat c)) (G c)) = sumf L (fun i => kmul (nth i f kzero) (G (p - i))).
Proof.
  intros Hf Hp HN.
  rewrite (sumf_ext N _ (fun c => sumf L (fun i => if Z.eqb (Z.of_nat p - Z.of_nat c) (Z.of_nat i) then kmul (nth i f kzero) (G c) else kzero))).
  2: { intros c Hc. rewrite zget_expand, Hf, <- sumf_mul_r. apply sumf_ext. intros i Hi. destruct (Z.eqb _ _); ring. }
  rewrite sumf_swap. apply sumf_ext. intros i Hi. rewrite (sumf_single N (p - i)); [|lia|].
  - destruct (Z.eqb_spec (Z.of_nat p - Z.of_nat (p - i)) (Z.of_nat i)); [reflexivity|lia].
  - intros c Hc Hn. destruct (Z.eqb_spec (Z.of_nat p - Z.of_nat c) (Z.of_nat i)); [lia|reflexivity].
Qed.
(** the product of the rows of the filters *)
Fixpoint row_prod (L : nat) (fs : list (list K)) (ks js : list nat) : K :=
  match fs, ks, js with f :: fs', k :: ks', j :: js' => kmul (zget f (Z.of_nat (L / 2) + 2 * Z.of_nat k - Z.of_nat j)) (row_prod L fs' ks' js') | _, _, _ => kone end.
Lemma filter_sums L fs ks s (G : list nat -> K) : 2 <= L -> L mod 2 = 0 -> Forall (fun f : list K => List.length f = L) fs -> List.length fs = List.length ks -> complete L (L / 2) ks s ->
  sumI s (fun js => kmul (row_prod L fs ks js) (G js)) = sumI (map (@List.length K) fs) (fun js => kmul (taps fs js) (G (down_at (L / 2) ks js))).
Proof.
  intros HL He Hfs Hlen Hc. unfold complete in Hc. revert fs G Hfs Hlen. induction Hc as [|k n ks s Hk Hc IH]; intros [|f fs] G Hfs Hlen; try discriminate; [reflexivity|].
  cbn [sumI map]. pose proof (Forall_inv Hfs) as Hf. cbn in Hf. rewrite Hf.
  transitivity (sumf n (fun c => kmul (zget f (Z.of_nat (L / 2 + 2 * k) - Z.of_nat c)) (sumI (map (@List.length K) fs) (fun js => kmul (taps fs js) (G (c :: down_at (L / 2) ks js)))))).
  - apply sumf_ext. intros c Hc'. rewrite <- (IH fs (fun js => G (c :: js)) (Forall_inv_tail Hfs) ltac:(cbn in Hlen; lia)). rewrite <- sumI_mul_l. apply sumI_ext. intros js _. cbn [row_prod].
    replace (Z.of_nat (L / 2 + 2 * k)) with (Z.of_nat (L / 2) + 2 * Z.of_nat k)%Z by lia. ring.
  - rewrite (filter_sum f L) by lia. apply sumf_ext. intros i Hi. rewrite <- sumI_mul_l. apply sumI_ext. intros js _. cbn [taps]. unfold down_at. cbn [map2]. replace (L / 2 + 2 * k - i) with (2 * k + L / 2 - i) by lia. ring.
Qed.
End Gen.
