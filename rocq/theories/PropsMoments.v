(** C78: where the data is a polynomial along an axis, a high-pass filter with enough vanishing moments leaves no detail. *)
From Coq Require Import List Arith ZArith Lia Bool String Ascii.
From Verif Require Import Base Sums Tensor TensorFacts Util Perm Plumb Accept Spec Conv1 PadFacts CoreFacts Analysis AnalysisInv PRKernel Synthesis Filters Lin Wave1 Props1 Conv2 Conv3 Spec2 WaveN Sep SpecSep SepFacts Unified PropsNd AxesPerm PropsAxes PropsConst Local PropsLocal Examples.
Import ListNotations.

Section Mom.
Context {K : CRing}.
Add Ring Kring : (cr_th K).
Implicit Types x y t : tensor K.
Implicit Types w : wavelet K.
Local Open Scope K_scope.

(** ** specification *)
Fixpoint num (n : nat) : K := match n with O => 0 | S n => num n + 1 end.
Fixpoint pown (u : K) (q : nat) : K := match q with O => 1 | S q => u * pown u q end.
(** the polynomial C_0 + C_1 u + ... + C_(p-1) u^(p-1) *)
Definition poly (p : nat) (C : nat -> K) (u : K) : K := sumf p (fun q => C q * pown u q).
(** f has p vanishing moments: sum_k f[k] k^q = 0 for q < p *)
Definition vanishing_moments (p : nat) (f : list K) : Prop :=
  forall q, (q < p)%nat -> sumf (List.length f) (fun k => nth k f 0 * pown (num k) q) = 0.
(** on the window of the level-j coefficient ks (C68) the data is, along the i-th transformed axis, a polynomial of degree < p in
    the position; its coefficients may change from line to line *)
Definition poly_on_window (L j p i : nat) (ks nax idx : list nat) x : Prop :=
  exists C : list nat -> nat -> K, forall ps, in_window L j ks ps -> get x (upds nax ps idx) = poly p (C (updn i 0%nat ps)) (num (nth i ps 0%nat)).
(** y, a level-j detail of x, is zero at every position whose window lies inside x and carries such data *)
Definition zero_on_polys (L j p i : nat) (nax : list nat) x y : Prop :=
  forall ks idx, fib_ok nax idx (shp x) -> inside L j ks (gather nax 0%nat (shp x)) -> poly_on_window L j p i ks nax idx x ->
    valid (upds nax ks idx) (shp y) /\ get y (upds nax ks idx) = 0.
(** the detail tensors of one level that contain the high-pass filter of the i-th transformed axis satisfy Q *)
Definition high_details (i : nat) (Q : tensor K -> Prop) (v : pyval K) : Prop :=
  match v with
  | PT t => Q t
  | PTup [h; ve; d] => (i = 0%nat -> Q h) /\ (i = 1%nat -> Q ve) /\ Q d
  | PDict d => forall k t, In (k, t) d -> nth i (list_ascii_of_string k) "a"%char = "d"%char -> Q t
  | _ => False
  end.

(** ** proof *)
Lemma num_add a b : num (a + b) = num a + num b.
Proof. induction a as [|a IH]; cbn [num Nat.add]; [ring|]. rewrite IH. ring. Qed.
Lemma num_sub a b : (b <= a)%nat -> num (a - b) = num a - num b.
Proof. intros H. replace a with (a - b + b)%nat at 2 by lia. rewrite num_add. ring. Qed.
Lemma num_two a : num (2 * a) = (1 + 1) * num a.
Proof. replace (2 * a)%nat with (a + a)%nat by lia. rewrite num_add. ring. Qed.
Lemma poly_ext p C C' u : (forall q, (q < p)%nat -> C q = C' q) -> poly p C u = poly p C' u.
Proof. intros H. apply sumf_ext. intros q Hq. rewrite H by exact Hq. reflexivity. Qed.
Lemma poly_S p C u : poly (S p) C u = C 0%nat + u * poly p (fun q => C (S q)) u.
Proof. unfold poly. rewrite sumf_S_first. cbn [pown]. rewrite <- sumf_mul_l. f_equal; [ring|]. apply sumf_ext. intros q _. ring. Qed.
(** the coefficients of a polynomial in a v + b *)
Fixpoint aff (p : nat) (C : nat -> K) (a b : K) : nat -> K :=
  match p with
  | O => fun _ => 0
  | S p => let R := aff p (fun q => C (S q)) a b in fun q => (match q with O => C 0%nat | _ => 0 end) + b * R q + a * (match q with O => 0 | S q' => R q' end)
  end.
Lemma aff_high p : forall C a b q, (p <= q)%nat -> aff p C a b q = 0.
Proof.
  induction p as [|p IH]; intros C a b q Hq; cbn [aff]; [reflexivity|]. destruct q as [|q]; [lia|]. rewrite !IH by lia. ring.
Qed.
Lemma aff_poly p : forall C a b u, poly p C (a * u + b) = poly p (aff p C a b) u.
Proof.
  induction p as [|p IH]; intros C a b u; [reflexivity|]. rewrite poly_S, IH. set (R := aff p (fun q => C (S q)) a b).
  assert (E1 : poly (S p) (aff (S p) C a b) u = poly (S p) (fun q => match q with O => C 0%nat | _ => 0 end) u + b * poly (S p) R u + a * poly (S p) (fun q => match q with O => 0 | S q' => R q' end) u).
  { unfold poly. rewrite <- !sumf_mul_l, <- !sumf_add. apply sumf_ext. intros q _. cbn [aff]. fold R. ring. }
  rewrite E1. rewrite (poly_S p (fun q => match q with O => C 0%nat | _ => 0 end)), (poly_S p (fun q => match q with O => 0 | S q' => R q' end)).
  assert (E2 : poly p (fun _ => 0) u = 0) by (apply sumf_zero; intros; ring). rewrite E2.
  assert (E3 : poly (S p) R u = poly p R u) by (unfold poly; cbn [sumf]; unfold R at 2; rewrite aff_high by lia; ring). rewrite E3.
  change (poly p (fun q => R q) u) with (poly p R u). ring.
Qed.
(** moments of a polynomial *)
Lemma moment_poly p f C : vanishing_moments p f -> sumf (List.length f) (fun k => nth k f 0 * poly p C (num k)) = 0.
Proof.
  intros H. unfold poly. rewrite (sumf_ext _ _ (fun k => sumf p (fun q => C q * (nth k f 0 * pown (num k) q)))).
  - rewrite sumf_swap. apply sumf_zero. intros q Hq. rewrite sumf_mul_l, H by exact Hq. ring.
  - intros k _. rewrite <- sumf_mul_l. apply sumf_ext. intros q _. ring.
Qed.
(** sums over an index box, one component first *)
Lemma sumI_inner ns : forall i (F : list nat -> K), (i < List.length ns)%nat ->
  (forall js, Forall2 lt js ns -> sumf (nth i ns 0%nat) (fun v => F (updn i v js)) = 0) -> Forall (fun n => (0 < n)%nat) ns -> sumI ns F = 0.
Proof.
  induction ns as [|n ns IH]; intros i F Hi H Hp; [cbn in Hi; lia|]. pose proof (Forall_inv Hp) as Hn. apply Forall_inv_tail in Hp. cbn [sumI]. destruct i as [|i].
  - rewrite <- (sumI_sumf_swap ns n (fun js v => F (v :: js))). apply sumI_zero. intros js Hjs. apply (H (0%nat :: js)). constructor; assumption.
  - apply sumf_zero. intros v Hv. apply (IH i); [cbn in Hi; lia| |exact Hp]. intros js Hjs. apply (H (v :: js)). constructor; assumption.
Qed.
Lemma taps_at (fs : list (list K)) : forall i v js, (i < List.length fs)%nat -> List.length js = List.length fs -> taps fs (updn i v js) = nth v (nth i fs []) 0 * taps (updn i [1] fs) (updn i 0%nat js).
Proof.
  induction fs as [|f fs IH]; intros i v [|j js] Hi Hj; try (cbn in *; lia). destruct i as [|i]; cbn [updn taps nth].
  - ring.
  - rewrite IH by (cbn in Hi, Hj; lia). ring.
Qed.
Lemma nth_down ks js i : (i < List.length ks)%nat -> (i < List.length js)%nat -> nth i (down ks js) 0%nat = (2 * nth i ks 0 + 1 - nth i js 0)%nat.
Proof. intros H1 H2. unfold down. rewrite (nth_map2 _ _ _ i 0%nat 0%nat 0%nat) by assumption. reflexivity. Qed.
Lemma down_updn ks : forall js i k v, updn i 0%nat (down (updn i k ks) (updn i v js)) = updn i 0%nat (down ks js).
Proof.
  induction ks as [|k0 ks IH]; intros [|j js] [|i] k v; try reflexivity. unfold down in *. cbn [updn map2]. f_equal. apply IH.
Qed.

(** polynomial on a set of positions, at level j *)
Section Set_.
Variables (lo : list K) (m : mode) (L p i : nat) (nax idx : list nat) (x : tensor K) (W : list nat -> Prop).
Hypotheses (HL : (2 <= L)%nat) (Hg : good_axes (rank x) nax) (Hlo : List.length lo = L) (Hi : (i < List.length nax)%nat) (Hf : fib_ok nax idx (shp x)).
Definition fits (j : nat) (ks : list nat) : Prop := inside L j ks (gather nax 0%nat (shp x)) /\ forall ps, in_window L j ks ps -> W ps.
Definition polyat (j : nat) y : Prop := exists C : list nat -> nat -> K, forall ks, fits j ks -> get y (upds nax ks idx) = poly p (C (updn i 0%nat ks)) (num (nth i ks 0%nat)).
Lemma js_small (fs : list (list K)) js : Forall (fun f : list K => List.length f = L) fs -> Forall2 lt js (map (@List.length K) fs) -> Forall (fun q => (q < L)%nat) js.
Proof using.
  clear. intros Hfs Hjs. remember (map (@List.length K) fs) as ls eqn:E. revert fs Hfs E. induction Hjs as [|q l js ls Hil Hjs IH]; intros fs Hfs E; [constructor|].
  destruct fs as [|f fs]; [discriminate|]. injection E as -> ->. pose proof (Forall_inv Hfs) as Hl. cbn in Hl. constructor; [lia|]. apply (IH fs); [exact (Forall_inv_tail Hfs)|reflexivity].
Qed.
Lemma fits_down j ks js : fits (S j) ks -> Forall (fun q => (q < L)%nat) js -> List.length js = List.length ks -> fits j (down ks js).
Proof using HL.
  intros [H1 H2] Hj Hl. destruct (inside_S L j ks _ HL H1) as [A B]. split; [apply B; assumption|]. intros ps Hp. apply H2. apply (window_S L j ks js); assumption.
Qed.
(** the value of any channel of the next level *)
Lemma next_value fs j C ks : Forall (fun f : list K => List.length f = L) fs -> List.length fs = List.length nax ->
  (forall ks, fits j ks -> get (approx lo m nax j x) (upds nax ks idx) = poly p (C (updn i 0%nat ks)) (num (nth i ks 0%nat))) -> fits (S j) ks ->
  valid (upds nax ks idx) (shp (dwt_axes fs m nax (approx lo m nax j x))) /\ List.length ks = List.length nax /\
  get (dwt_axes fs m nax (approx lo m nax j x)) (upds nax ks idx) =
    sumI (map (@List.length K) fs) (fun js => taps fs js * poly p (C (updn i 0%nat (down ks js))) ((1 + 1) * num (nth i ks 0%nat) + 1 - num (nth i js 0%nat))).
Proof using All.
  intros Hfs Hl HC Hks. pose proof Hks as [Hin _]. assert (Lk : List.length ks = List.length nax) by (rewrite (inside_len _ _ _ _ Hin); unfold gather; apply map_length).
  destruct (inside_S L j ks _ HL Hin) as [Hk _].
  destruct (dwt_inner fs m L nax idx (approx lo m nax j x) ks) as [V G]; auto; [rewrite approx_rank; exact Hg|apply approx_fib; exact Hf|rewrite (approx_sizes lo m L) by auto; apply inside_sizes; assumption|].
  split; [exact V|]. split; [exact Lk|]. rewrite G. apply sumI_ext. intros js Hjs. f_equal. pose proof (js_small fs js Hfs Hjs) as Hj.
  assert (Lj : List.length js = List.length ks) by (apply F2_len in Hjs; rewrite map_length in Hjs; lia).
  change (map2 (fun k q => (2 * k + 1 - q)%nat) ks js) with (down ks js). rewrite HC by (apply fits_down; assumption). f_equal.
  rewrite nth_down by lia. assert (Hki : (L - 2 <= 2 * nth i ks 0)%nat) by (rewrite Forall_forall in Hk; apply Hk, nth_In; lia).
  assert (Hji : (nth i js 0 < L)%nat) by (rewrite Forall_forall in Hj; apply Hj, nth_In; lia).
  rewrite num_sub by lia. rewrite num_add, num_two. cbn [num]. ring.
Qed.
Lemma approx_polyat j : polyat 0 x -> polyat j (approx lo m nax j x).
Proof using All.
  intros H0. induction j as [|j [C HC]]; [exact H0|].
  set (fs := repeat lo (List.length nax)).
  assert (Hfs : Forall (fun f : list K => List.length f = L) fs) by (apply Forall_forall; intros f Hin; apply repeat_spec in Hin; subst f; exact Hlo).
  exists (fun ks q => sumI (map (@List.length K) fs) (fun js => taps fs js * aff p (C (updn i 0%nat (down ks js))) (1 + 1) (1 - num (nth i js 0%nat)) q)).
  intros ks Hks. change (approx lo m nax (S j) x) with (dwt_axes fs m nax (approx lo m nax j x)).
  destruct (next_value fs j C ks Hfs (repeat_length _ _) HC Hks) as (_ & Lk & ->).
  unfold poly at 2. rewrite (sumf_ext p _ (fun q => sumI (map (@List.length K) fs) (fun js => (taps fs js * aff p (C (updn i 0%nat (down ks js))) (1 + 1) (1 - num (nth i js 0%nat)) q) * pown (num (nth i ks 0%nat)) q))).
  - rewrite <- sumI_sumf_swap. apply sumI_ext. intros js Hjs.
    rewrite (sumf_ext p _ (fun q => taps fs js * (aff p (C (updn i 0%nat (down ks js))) (1 + 1) (1 - num (nth i js 0%nat)) q * pown (num (nth i ks 0%nat)) q))) by (intros; ring).
    rewrite sumf_mul_l. f_equal. change (sumf p _) with (poly p (aff p (C (updn i 0%nat (down ks js))) (1 + 1) (1 - num (nth i js 0%nat))) (num (nth i ks 0%nat))).
    rewrite <- aff_poly. f_equal. ring.
  - intros q _. rewrite <- (Radd_0_l (cr_th K) (_ * pown _ q)) at 1. 
    assert (E : forall s (F : list nat -> K) c, sumI s F * c = sumI s (fun js => F js * c)).
    { intros s F c. rewrite (sumI_ext s (fun js => F js * c) (fun js => c * F js)) by (intros; ring). rewrite sumI_mul_l. ring. }
    rewrite (Radd_0_l (cr_th K)), E. apply sumI_ext. intros js _. f_equal. f_equal. 
    assert (Ed : updn i 0%nat (down (updn i 0%nat ks) js) = updn i 0%nat (down ks js)) by (rewrite <- (updn_same i js 0%nat) at 1; apply down_updn). rewrite Ed. reflexivity.
Qed.
Lemma detail_polyat fs j ks : Forall (fun f : list K => List.length f = L) fs -> List.length fs = List.length nax -> vanishing_moments p (nth i fs []) ->
  polyat 0 x -> fits (S j) ks -> valid (upds nax ks idx) (shp (dwt_axes fs m nax (approx lo m nax j x))) /\ get (dwt_axes fs m nax (approx lo m nax j x)) (upds nax ks idx) = 0.
Proof using All.
  intros Hfs Hl Hv H0 Hks. destruct (approx_polyat j H0) as [C HC]. destruct (next_value fs j C ks Hfs Hl HC Hks) as (V & Lk & ->). split; [exact V|].
  apply (sumI_inner _ i).
  - rewrite map_length. lia.
  - intros js Hjs. assert (Lj : List.length js = List.length fs) by (apply F2_len in Hjs; rewrite map_length in Hjs; exact Hjs).
    rewrite (nth_indep _ _ (List.length (@nil K))) by (rewrite map_length; lia). rewrite (map_nth (@List.length K)).
    set (B := C (updn i 0%nat (down ks js))).
    rewrite (sumf_ext _ _ (fun v => taps (updn i [1] fs) (updn i 0%nat js) * (nth v (nth i fs []) 0 * poly p (aff p B (0 - 1) ((1 + 1) * num (nth i ks 0%nat) + 1)) (num v)))).
    + rewrite sumf_mul_l, moment_poly by exact Hv. ring.
    + intros v _. rewrite taps_at by lia. rewrite nth_updn_eq by lia. 
      assert (Ed : updn i 0%nat (down ks (updn i v js)) = updn i 0%nat (down ks js)) by (rewrite <- (updn_same i ks 0%nat) at 1; apply down_updn). rewrite Ed. fold B.
      rewrite <- aff_poly. set (T := taps (updn i [1] fs) (updn i 0%nat js)). replace ((0 - 1) * num v + ((1 + 1) * num (nth i ks 0%nat) + 1)) with ((1 + 1) * num (nth i ks 0%nat) + 1 - num v) by ring. ring.
  - apply Forall_forall. intros n Hn. apply in_map_iff in Hn as (f & <- & Hin). rewrite Forall_forall in Hfs. rewrite (Hfs f Hin). lia.
Qed.
End Set_.

Lemma detail_moments lo fs m L p i j nax x : (2 <= L)%nat -> good_axes (rank x) nax -> List.length lo = L -> (i < List.length nax)%nat ->
  Forall (fun f : list K => List.length f = L) fs -> List.length fs = List.length nax -> vanishing_moments p (nth i fs []) -> (1 <= j)%nat ->
  zero_on_polys L j p i nax x (detail lo fs m nax j x).
Proof.
  intros HL Hg Hlo Hi Hfs Hl Hv Hj ks idx Hf Hin [C HC]. unfold detail.
  apply (detail_polyat lo m L p i nax idx x (in_window L j ks)); auto.
  - exists C. intros ps [_ Hp]. apply HC. apply Hp. apply window_0_refl.
  - replace (S (j - 1)) with j by lia. split; [exact Hin|auto].
Qed.

(** ** C78 *)
Theorem C78_vanishing_moments T x w m L level c p i axes : wf x ->
  List.length (dec_lo w) = L -> List.length (dec_hi w) = L -> (2 <= L)%nat -> Nat.even L = true -> vanishing_moments p (dec_hi w) ->
  (is3 T = true -> (2 <= List.length (pc_items c))%nat) -> (isfs T = true -> level = None -> ~ In 0%nat (shp x)) ->
  hint_axes (thint T) (tdim T) = Some axes -> (i < tdim T)%nat ->
  analyse T x w (Some (mode_name m)) level = Ok c ->
  let J := (List.length (pc_items c) - 1)%nat in
  forall j, (1 <= j <= J)%nat -> high_details i (zero_on_polys L j p i (map (norm_axis (rank x)) axes) x) (nth (J + 1 - j) (pc_items c) POther).
Proof.
  intros Hw H1 H2 HL He Hv H3 Hfs Hh Hi H J j Hj.
  edestruct (analyse_inv T x w m L level) with (8 := H) as (Hd & axes1 & Hh1 & Hla & Hax & HJ); try eassumption.
  { intros E. left. auto. }
  rewrite Hh in Hh1. injection Hh1 as <-. cbv zeta in HJ. destruct HJ as (HJ3 & HJfs & Hlev & Hc).
  set (nax := map (norm_axis (rank x)) axes) in *. pose proof (good_axes_ok _ _ Hax) as Hg. fold nax in Hg.
  assert (Hn : List.length nax = tdim T) by (unfold nax; rewrite map_length; exact Hla).
  set (J' := num_levels level L (gather nax 0%nat (shp x))) in *.
  assert (LJ : J = J') by (unfold J; rewrite Hc; unfold tspec; cbn [pc_items List.length]; rewrite map_length, rev_length, seq_length; lia). clearbody J. subst J.
  rewrite Hc, item_detail by exact Hj.
  assert (G : forall fs, List.length fs = List.length nax -> Forall (fun f : list K => List.length f = L) fs -> nth i fs [] = dec_hi w -> zero_on_polys L j p i nax x (detail (dec_lo w) fs m nax j x)).
  { intros fs Hl HF Hf. apply detail_moments; auto; try lia. rewrite Hf. exact Hv. }
  assert (GD : forall ks, Forall (fun k => String.length k = tdim T) ks -> high_details i (zero_on_polys L j p i nax x) (PDict (map (fun k => (k, detail (dec_lo w) (key_filters (dec_lo w) (dec_hi w) k) m nax j x)) ks))).
  { intros ks Hks k t Hin Hk. apply in_map_iff in Hin as (k' & E & Hin). injection E as -> <-. rewrite Forall_forall in Hks. specialize (Hks _ Hin).
    destruct (key_filters_len (dec_lo w) (dec_hi w) L k H1 H2) as [A B]. apply G; [congruence|exact B|]. apply key_filter_at; [rewrite Hks; exact Hi|exact Hk]. }
  destruct T; cbn [tdetails tdim] in *.
  - cbn [high_details]. apply G; [cbn; congruence|repeat constructor; assumption|]. replace i with 0%nat by lia. reflexivity.
  - unfold details2. cbn [high_details]. split; [intros ->|split; [intros ->|]]; apply G; try (cbn; congruence); try (repeat constructor; assumption). destruct i as [|[|i]]; [reflexivity..|lia].
  - unfold details3. apply GD. repeat constructor.
  - unfold detailsN. rewrite Hn. apply GD. repeat constructor.
  - unfold detailsN. rewrite Hn. apply GD. repeat constructor.
Qed.
(** the 1d case in elementary terms *)
Theorem C78_wavedec_1d (n : nat) (x : tensor K) w m L level cs p (C : nat -> K) : wf x -> shp x = [n] ->
  List.length (dec_lo w) = L -> List.length (dec_hi w) = L -> (2 <= L)%nat -> Nat.even L = true -> vanishing_moments p (dec_hi w) ->
  wavedec x w (Some (mode_name m)) level (-1) = Ok (mkPC true (map PT cs)) ->
  forall j k, (1 <= j <= List.length cs - 1)%nat -> ((2 ^ j - 1) * (L - 2) <= 2 ^ j * k)%nat -> (2 ^ j * (k + 1) <= n)%nat ->
    (forall s, (2 ^ j * k <= s + (2 ^ j - 1) * (L - 2))%nat -> (s < 2 ^ j * (k + 1))%nat -> get x [s] = poly p C (num s)) ->
    get (nth (List.length cs - j) cs x) [k] = 0.
Proof.
  intros Hw Sx H1 H2 HL He Hv E j k Hj A B Hp.
  pose proof (C78_vanishing_moments (Twavedec (-1)) x w m L level _ p 0%nat [(-1)%Z] Hw H1 H2 HL He Hv ltac:(discriminate) ltac:(discriminate) eq_refl ltac:(cbn; lia) E) as G.
  cbv zeta in G. cbn [pc_items] in G. rewrite !map_length in G. specialize (G j Hj). replace (List.length cs - 1 + 1 - j)%nat with (List.length cs - j)%nat in G by lia.
  rewrite (nth_indep _ _ (PT x)) in G by (rewrite map_length; lia). rewrite (map_nth (@PT K)) in G. cbn [high_details] in G.
  assert (Hr : rank x = 1%nat) by (unfold rank; rewrite Sx; reflexivity). rewrite Hr in G. change (map (norm_axis 1) [(-1)%Z]) with [0%nat] in G.
  specialize (G [k] [0%nat]). rewrite Sx in G. cbn [gather map nth upds updn] in G. apply G.
  - split; [reflexivity|]. intros d Hd Hn. exfalso. apply Hn. cbn in Hd. left. lia.
  - repeat constructor; assumption.
  - exists (fun _ => C). intros ps H. inversion H as [|? s ? ps' Hks H']; subst. inversion H'; subst. cbn [upds updn nth]. apply Hp; apply Hks.
Qed.
End Mom.

(** ** examples over the integers *)
(** three vanishing moments (length 4); 16 samples, quadratic up to sample 11, arbitrary afterwards: the level-2 coefficient 2 (samples 2..11) is zero, coefficient 3 is not *)
Definition exW3m : wavelet ZK := mkWav (K := ZK) [1; 3; 3; 1]%Z [1; -3; 3; -1]%Z [1; 3; 3; 1]%Z [1; -3; 3; -1]%Z.
Definition exQuad : tensor ZK := mkT (K := ZK) f32 [16] (map (fun i => if Nat.ltb i 12 then (5 - 7 * Z.of_nat i + 2 * Z.of_nat i * Z.of_nat i)%Z else Z.of_nat ((i * i) mod 7)) (seq 0 16)).
Theorem ex_C78_moments : vanishing_moments (K := ZK) 3 (dec_hi exW3m) /\ ~ vanishing_moments (K := ZK) 4 (dec_hi exW3m).
Proof.
  split.
  - intros [|[|[|q]]] Hq; [vm_compute; reflexivity..|lia].
  - intros H. specialize (H 3 ltac:(lia)). vm_compute in H. discriminate.
Qed.
Theorem ex_C78 : exists cs, wavedec exQuad exW3m (Some (mode_name Mreflect)) (Some 2%Z) (-1) = Ok (mkPC true (map PT cs)) /\ wf exQuad /\ List.length cs = 3 /\
  (forall s, 2 ^ 2 * 2 <= s + (2 ^ 2 - 1) * (4 - 2) -> s < 2 ^ 2 * (2 + 1) -> get exQuad [s] = poly (K := ZK) 3 (fun q => nth q [5; -7; 2]%Z 0%Z) (num s)) /\
  get (nth (3 - 2) cs exQuad) [2] = 0%Z /\ get (nth (3 - 2) cs exQuad) [3] <> 0%Z /\ get (nth 0 cs exQuad) [2] <> 0%Z.
Proof.
  exists (tensors (wavedec exQuad exW3m (Some (mode_name Mreflect)) (Some 2%Z) (-1))).
  split; [vm_compute; reflexivity|]. split; [vm_compute; reflexivity|]. split; [vm_compute; reflexivity|].
  split; [|repeat split; vm_compute; congruence].
  intros s H1 H2. cbn in H1, H2. assert (s = 2 \/ s = 3 \/ s = 4 \/ s = 5 \/ s = 6 \/ s = 7 \/ s = 8 \/ s = 9 \/ s = 10 \/ s = 11) as Hs by lia.
  repeat destruct Hs as [->|Hs]; try subst s; vm_compute; reflexivity.
Qed.
