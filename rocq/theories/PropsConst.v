(** C63: data that is constant along an axis has no detail along that axis. *)
From Coq Require Import List Arith ZArith Lia Bool String Ascii Permutation.
From Verif Require Import Base Sums Tensor TensorFacts Util Perm Plumb Accept Spec Conv1 CoreFacts Filters Wave1 Wave1Inv Lin Examples Props1 Conv2 Conv3 Spec2 WaveN Props2 Sep SpecSep SepFacts PropsSep Unified AxesPerm PropsAxes PropsNd.
Import ListNotations.

Section Cst.
Context {K : CRing}.
Add Ring Kring : (cr_th K).
Implicit Types x y t : tensor K.
Implicit Types w : wavelet K.
Local Open Scope K_scope.

(** ** specification *)
(** the entries of x do not change along axis a *)
Definition const_along (a : nat) x : Prop := forall idx i, valid idx (shp x) -> (i < nth a (shp x) 0)%nat -> get x (updn a i idx) = get x idx.
Definition all_zero t : Prop := forall idx, valid idx (shp t) -> get t idx = 0.
(** the detail tensors that contain the high-pass filter of the i-th transformed axis vanish *)
Definition details_vanish (i : nat) (v : pyval K) : Prop :=
  match v with
  | PT t => all_zero t                                                              (* 1d *)
  | PTup [h; ve; d] => (i = 0%nat -> all_zero h) /\ (i = 1%nat -> all_zero ve) /\ all_zero d   (* horizontal = high-pass along the first axis *)
  | PDict d => forall k t, In (k, t) d -> nth i (list_ascii_of_string k) "a"%char = "d"%char -> all_zero t
  | _ => False
  end.

(** ** proofs *)
Lemma dstep_lt m s idx a j i : extendable m (nth a s 0%nat) -> dstep m s idx a j = Some i -> (i < nth a s 0)%nat.
Proof.
  unfold dstep. intros He E. apply (ext_idx_lt m _ _ _) in E; [exact E| |].
  - destruct m; [left; reflexivity|right..]; cbn in He; lia.
  - intros ->. left. exact He.
Qed.
Lemma dval_agree m s idx l P Q : (forall a f, In (a, f) l -> (a < List.length s)%nat /\ extendable m (nth a s 0%nat)) -> NoDup (map fst l) ->
  (forall c, valid c s -> P c = Q c) -> forall cur, fib_ok (map fst l) cur s -> dval (K := K) m s idx l P cur = dval m s idx l Q cur.
Proof.
  intros He Hn H. induction l as [|[a f] l IH]; intros cur [Hl Hc]; cbn [dval].
  - apply H. apply valid_intro; [exact Hl|]. intros d Hd. apply Hc; [exact Hd|cbn; tauto].
  - inversion Hn; subst. apply sumf_ext. intros j _. destruct (dstep m s idx a j) as [i|] eqn:E; [|reflexivity]. f_equal.
    destruct (He a f) as [Ha Hext]; [left; reflexivity|]. apply IH; auto; [intros; eapply He; right; eassumption|].
    split; [rewrite updn_length; exact Hl|]. intros d Hd Hnd. destruct (Nat.eq_dec d a) as [->|Hne].
    + rewrite nth_updn_eq by lia. apply (dstep_lt m s idx a j); assumption.
    + rewrite nth_updn_ne by congruence. apply Hc; [exact Hd|]. cbn. intros [E1|E1]; [congruence|contradiction].
Qed.
Lemma dval_pull m s idx l a i (P : list nat -> K) cur : ~ In a (map fst l) -> dval m s idx l P (updn a i cur) = dval m s idx l (fun c => P (updn a i c)) cur.
Proof.
  revert cur. induction l as [|[b f] l IH]; intros cur Hn; cbn [dval]; [reflexivity|]. cbn in Hn. apply sumf_ext. intros j _.
  destruct (dstep m s idx b j) as [q|]; [|reflexivity]. rewrite updn_comm by tauto. rewrite IH by tauto. reflexivity.
Qed.
Lemma dval_idx m s idx idx' l (P : list nat -> K) cur : (forall a, In a (map fst l) -> nth a idx 0%nat = nth a idx' 0%nat) -> dval m s idx l P cur = dval m s idx' l P cur.
Proof.
  revert cur. induction l as [|[b f] l IH]; intros cur H; cbn [dval]; [reflexivity|]. apply sumf_ext. intros j _. unfold dstep. rewrite (H b) by (left; reflexivity).
  destruct (ext_idx m _ _); [|reflexivity]. rewrite IH; [reflexivity|]. intros a Ha. apply H. right. exact Ha.
Qed.

Lemma ext_total m n z : m <> Mzero -> exists i, ext_idx m n z = Some i.
Proof. intros H. destruct m; [congruence|..]; cbn; eauto. Qed.

(** one level, the constant axis listed first *)
Lemma dval_head m s idx a f l x : m <> Mzero -> (forall b g, In (b, g) ((a, f) :: l) -> (b < List.length s)%nat /\ extendable m (nth b s 0%nat)) -> NoDup (map fst ((a, f) :: l)) ->
  shp x = s -> const_along a x -> (0 < nth a s 0)%nat -> forall cur, fib_ok (map fst ((a, f) :: l)) cur s ->
  dval m s idx ((a, f) :: l) (get x) cur = sumf (List.length f) (fun j => nth j f 0) * dval m s idx l (get x) (updn a 0%nat cur).
Proof.
  intros Hm He Hn Hs Hc H0 cur Hcur. cbn [dval]. rewrite <- sumf_mul_r. apply sumf_ext. intros j _. cbn in Hn. inversion Hn as [|? ? Hna Hn']; subst.
  destruct (He a f) as [Ha Hext]; [left; reflexivity|].
  destruct (dstep m (shp x) idx a j) as [i|] eqn:Ei.
  2: { unfold dstep in Ei. destruct (ext_total m (nth a (shp x) 0%nat) (2 * Z.of_nat (nth a idx 0%nat) + 1 - Z.of_nat j)%Z Hm) as [i Hi]. congruence. }
  apply dstep_lt in Ei; [|exact Hext]. f_equal.
  assert (G : forall i', (i' < nth a (shp x) 0)%nat -> dval m (shp x) idx l (get x) (updn a i' cur) = dval m (shp x) idx l (fun c => get x (updn a 0%nat c)) cur).
  { intros i' Hlt. rewrite (dval_agree m (shp x) idx l (get x) (fun c => get x (updn a 0%nat c))); auto.
    - rewrite dval_pull by exact Hna. apply dval_ext. intros c. rewrite updn_updn. reflexivity.
    - intros; eapply He; right; eassumption.
    - intros c Hv. symmetry. apply Hc; [exact Hv|exact H0].
    - destruct Hcur as [Hl Hcc]. split; [rewrite updn_length; exact Hl|]. intros d Hd Hnd. destruct (Nat.eq_dec d a) as [->|Hne]; [rewrite nth_updn_eq by lia; exact Hlt|].
      rewrite nth_updn_ne by congruence. apply Hcc; [exact Hd|]. cbn. intros [E|E]; [congruence|contradiction]. }
  rewrite !G by assumption. reflexivity.
Qed.

Lemma perm_head (l : list (nat * list K)) a : In a (map fst l) -> exists f r, In (a, f) l /\ Permutation l ((a, f) :: r).
Proof.
  intros H. apply in_map_iff in H as ([a' f] & <- & H). cbn. apply in_split in H as (l1 & l2 & ->). exists f, (l1 ++ l2). split; [apply in_elt|]. symmetry. apply Permutation_middle.
Qed.
Lemma fib_valid_out nax osz s idx : good_axes (List.length s) nax -> List.length osz = List.length nax -> valid idx (upds nax osz s) -> fib_ok nax idx s.
Proof.
  intros Hg Hl Hv. pose proof (valid_length _ _ Hv) as Hlen. rewrite upds_length in Hlen. split; [exact Hlen|]. intros d Hd Hn.
  assert (Hd' : (d < List.length (upds nax osz s))%nat) by (rewrite upds_length; exact Hd).
  pose proof (valid_nth idx _ d Hv Hd') as H. rewrite nth_upds_notin in H by exact Hn. exact H.
Qed.

Section One.
Variables (m : mode) (L : nat) (nax : list nat) (fs : list (list K)) (x : tensor K) (a : nat) (f : list K).
Hypotheses (Hm : m <> Mzero) (HL : (2 <= L)%nat) (Hg : good_axes (rank x) nax) (Hl : List.length fs = List.length nax)
  (Hadm : adm_axes m L nax (shp x)) (Ha : In (a, f) (combine nax fs)) (Hc : const_along a x).
Lemma one_ext b g : In (b, g) (combine nax fs) -> (b < List.length (shp x))%nat /\ extendable m (nth b (shp x) 0%nat).
Proof using All.
  intros Hin. apply in_combine_l in Hin. split; [apply Hg; exact Hin|]. unfold adm_axes in Hadm. rewrite Forall_forall in Hadm.
  apply (adm_extendable m L); [exact HL|]. apply Hadm. apply in_map_iff. exists b. split; [reflexivity|exact Hin].
Qed.
Lemma one_pos : (0 < nth a (shp x) 0)%nat.
Proof using All. destruct (one_ext a f Ha) as [_ He]. destruct m; cbn in He; try lia. congruence. Qed.
Lemma one_value idx : valid idx (shp (dwt_axes fs m nax x)) -> exists r, Permutation (combine nax fs) ((a, f) :: r) /\
  get (dwt_axes fs m nax x) idx = sumf (List.length f) (fun j => nth j f 0) * dval m (shp x) idx r (get x) (updn a 0%nat idx).
Proof using All.
  intros Hv. pose proof Ha as Hin. apply in_split in Hin as (l1 & l2 & El). exists (l1 ++ l2).
  assert (HP : Permutation (combine nax fs) ((a, f) :: l1 ++ l2)) by (rewrite El; symmetry; apply Permutation_middle). split; [exact HP|].
  assert (Hn : NoDup (map fst (combine nax fs))) by (rewrite map_fst_comb by exact Hl; apply Hg).
  assert (Hn2 : NoDup (map fst ((a, f) :: l1 ++ l2))) by (apply (Permutation_NoDup (l := map fst (combine nax fs))); [apply Permutation_map; exact HP|exact Hn]).
  unfold dwt_axes, along_axes in Hv |- *. cbv zeta in *. rewrite shp_make in Hv. rewrite get_make by exact Hv. rewrite dval_dwt by (auto; apply Hg).
  rewrite (dval_perm _ _ _ _ _ _ _ HP Hn). apply dval_head; auto.
  - intros b g Hb. apply (one_ext b g). apply (Permutation_in _ (Permutation_sym HP)). exact Hb.
  - apply one_pos.
  - apply fib_valid_out in Hv; [|exact Hg|rewrite map2_length, gather_length; lia]. destruct Hv as [V1 V2]. split; [exact V1|]. intros d Hd Hnd. apply V2; [exact Hd|].
    intros Hin. apply Hnd. apply (Permutation_in (l := map fst (combine nax fs))); [apply Permutation_map; exact HP|]. rewrite map_fst_comb by exact Hl. exact Hin.
Qed.
Lemma one_zero : sumf (List.length f) (fun j => nth j f 0) = 0 -> all_zero (dwt_axes fs m nax x).
Proof using All. intros H0 idx Hv. destruct (one_value idx Hv) as (r & _ & ->). rewrite H0. ring. Qed.
Lemma one_const : const_along a (dwt_axes fs m nax x).
Proof using All.
  intros idx i Hv Hi. assert (Hal : (a < List.length (shp x))%nat) by (destruct (one_ext a f Ha) as [H _]; exact H).
  assert (Hal2 : (a < List.length idx)%nat).
  { rewrite (valid_length _ _ Hv). unfold dwt_axes, along_axes. rewrite shp_make, upds_length. exact Hal. }
  assert (Hv2 : valid (updn a i idx) (shp (dwt_axes fs m nax x))).
  { pose proof (valid_updn idx _ a i _ Hv Hi) as H. rewrite updn_same in H. exact H. }
  assert (Hv0 : valid (updn a 0%nat idx) (shp (dwt_axes fs m nax x))).
  { pose proof (valid_updn idx _ a 0%nat (nth a (shp (dwt_axes fs m nax x)) 0%nat) Hv ltac:(lia)) as H. rewrite updn_same in H. exact H. }
  destruct (one_value idx Hv) as (r & HP & ->). destruct (one_value _ Hv2) as (r' & HP' & ->).
  assert (HPr : Permutation r' r) by (apply (Permutation_cons_inv (a := (a, f))); rewrite <- HP', <- HP; reflexivity).
  assert (Hn : NoDup (map fst ((a, f) :: r))).
  { apply (Permutation_NoDup (l := map fst (combine nax fs))); [apply Permutation_map; exact HP|]. rewrite map_fst_comb by exact Hl. apply Hg. }
  cbn in Hn. inversion Hn as [|? ? Hna Hn']; subst. f_equal. rewrite updn_updn.
  rewrite (dval_perm _ _ _ r' r _ _ HPr).
  - apply dval_idx. intros b Hb. apply nth_updn_ne. intros ->. contradiction.
  - apply (Permutation_NoDup (l := map fst r)); [apply Permutation_map; symmetry; exact HPr|exact Hn'].
Qed.
End One.

(** ** all levels *)
Lemma approx_const (lo : list K) m L J nax a x j : m <> Mzero -> (2 <= L)%nat -> good_axes (rank x) nax -> List.length lo = L -> levels_axes m L J nax (shp x) ->
  In a nax -> const_along a x -> (j <= J)%nat -> const_along a (approx lo m nax j x).
Proof.
  intros Hm HL Hg Hlo Hlev Ha Hc. induction j as [|j IH]; intros Hj; [exact Hc|].
  change (approx lo m nax (S j) x) with (dwt_axes (repeat lo (List.length nax)) m nax (approx lo m nax j x)).
  apply (one_const m L nax (repeat lo (List.length nax)) (approx lo m nax j x) a lo); auto.
  - rewrite approx_rank. exact Hg.
  - apply repeat_length.
  - apply (levels_axes_adm lo m L J); auto.
  - clear - Ha. induction nax as [|b nax IH]; [destruct Ha|]. cbn. destruct Ha as [->|Ha]; [left; reflexivity|right; auto].
  - apply IH. lia.
Qed.
Lemma detail_zero (lo f : list K) fs m L J nax i x j : m <> Mzero -> (2 <= L)%nat -> good_axes (rank x) nax -> List.length lo = L -> levels_axes m L J nax (shp x) ->
  (i < List.length nax)%nat -> const_along (nth i nax 0%nat) x -> List.length fs = List.length nax -> nth i fs [] = f -> sumf (List.length f) (fun q => nth q f 0) = 0 -> (1 <= j <= J)%nat ->
  all_zero (detail lo fs m nax j x).
Proof.
  intros Hm HL Hg Hlo Hlev Hi Hc Hl Hf H0 Hj. unfold detail.
  apply (one_zero m L nax fs (approx lo m nax (j - 1) x) (nth i nax 0%nat) f); auto.
  - rewrite approx_rank. exact Hg.
  - apply (levels_axes_adm lo m L J); auto. lia.
  - rewrite <- Hf, <- combine_nth by congruence. apply nth_In. rewrite combine_length. lia.
  - apply (approx_const lo m L J); auto; [apply nth_In; exact Hi|lia].
Qed.
Lemma key_filter_at (lo hi : list K) k i : (i < String.length k)%nat -> nth i (list_ascii_of_string k) "a"%char = "d"%char -> nth i (key_filters lo hi k) [] = hi.
Proof.
  intros Hi H. unfold key_filters. set (F := fun c : ascii => if Ascii.eqb c "d" then hi else lo).
  assert (E : List.length (list_ascii_of_string k) = String.length k) by (clear; induction k as [|c k IH]; [reflexivity|cbn; rewrite IH; reflexivity]).
  rewrite (nth_indep _ [] (F "a"%char)) by (rewrite map_length, E; exact Hi). rewrite map_nth, H. reflexivity.
Qed.

Theorem C63_constant_axis_no_detail T x w m L level c i axes : wf x -> m <> Mzero ->
  List.length (dec_lo w) = L -> List.length (dec_hi w) = L -> (2 <= L)%nat -> Nat.even L = true ->
  sumf L (fun j => nth j (dec_hi w) 0) = 0 ->
  (is3 T = true -> (2 <= List.length (pc_items c))%nat) -> (isfs T = true -> level = None -> ~ In 0%nat (shp x)) ->
  hint_axes (thint T) (tdim T) = Some axes -> (i < tdim T)%nat -> const_along (norm_axis (rank x) (nth i axes 0%Z)) x ->
  analyse T x w (Some (mode_name m)) level = Ok c ->
  Forall (details_vanish i) (tl (pc_items c)).
Proof.
  intros Hw Hm H1 H2 HL He H0 H3 Hfs Hh Hi Hc H.
  edestruct (analyse_inv T x w m L level) with (8 := H) as (Hd & axes1 & Hh1 & Hla & Hax & HJ); try eassumption.
  { intros E. left. auto. }
  rewrite Hh in Hh1. injection Hh1 as <-. cbv zeta in HJ. destruct HJ as (HJ3 & HJfs & Hlev & ->).
  set (nax := map (norm_axis (rank x)) axes) in *. pose proof (good_axes_ok _ _ Hax) as Hg. fold nax in Hg.
  assert (Hn : List.length nax = tdim T) by (unfold nax; rewrite map_length; exact Hla).
  assert (Hci : const_along (nth i nax 0%nat) x).
  { unfold nax. rewrite (nth_indep _ 0%nat (norm_axis (rank x) 0%Z)) by (rewrite map_length; lia). rewrite map_nth. exact Hc. }
  unfold tspec. cbn [pc_items tl]. set (J := num_levels level L (gather nax 0%nat (shp x))) in *. apply Forall_forall. intros v Hv. apply in_map_iff in Hv as (j & <- & Hj).
  apply in_rev in Hj. apply in_seq in Hj.
  assert (G : forall fs, List.length fs = List.length nax -> nth i fs [] = dec_hi w -> all_zero (detail (dec_lo w) fs m nax j x)).
  { intros fs Hl Hf. apply (detail_zero (dec_lo w) (dec_hi w) fs m L J nax i x j); auto; try lia. rewrite H2. exact H0. }
  assert (GD : forall ks, Forall (fun k => String.length k = tdim T) ks -> details_vanish i (PDict (map (fun k => (k, detail (dec_lo w) (key_filters (dec_lo w) (dec_hi w) k) m nax j x)) ks))).
  { intros ks Hks k t Hin Hk. apply in_map_iff in Hin as (k' & E & Hin). injection E as -> <-. rewrite Forall_forall in Hks. specialize (Hks _ Hin). apply G.
    - destruct (key_filters_facts (dec_lo w) (dec_hi w) L k H1 H2) as [-> _]. congruence.
    - apply key_filter_at; [rewrite Hks; exact Hi|exact Hk]. }
  destruct T; cbn [tdetails tdim] in *.
  - cbn [details_vanish]. apply G; [cbn; congruence|]. replace i with 0%nat by lia. reflexivity.
  - unfold details2. cbn [details_vanish]. split; [intros ->|split; [intros ->|]]; apply G; try (cbn; congruence). destruct i as [|[|i]]; [reflexivity..|lia].
  - unfold details3. apply GD. repeat constructor.
  - unfold detailsN. rewrite Hn. apply GD. repeat constructor.
  - unfold detailsN. rewrite Hn. apply GD. repeat constructor.
Qed.
End Cst.

(** a filter bank whose high-pass filter sums to zero *)
Definition exH : wavelet ZK := mkWav (K := ZK) [1; 1]%Z [-1; 1]%Z [1; 1]%Z [1; -1]%Z.
Definition exRows (s0 s1 : nat) : tensor ZK := mkT (K := ZK) f32 [s0; s1] (List.concat (repeat (map (fun i => Z.of_nat (i * i + 1)) (seq 0 s1)) s0)).
Definition zero_tensor (t : tensor ZK) : bool := forallb (fun z => Z.eqb z 0) (dat t).
(** every row equal: constant along the first axis; the horizontal and diagonal details vanish at both levels, the vertical ones do not *)
Theorem ex_C63 : const_along 0 (exRows 5 6) /\
  match wavedec2 (exRows 5 6) exH (Some "symmetric"%string) (Some 2%Z) AxNone with
  | Ok c => match pc_items c with
     | [PT _; PTup [h2; v2; d2]; PTup [h1; v1; d1]] => map zero_tensor [h2; v2; d2; h1; v1; d1] = [true; false; true; true; false; true]
     | _ => False end
  | Raise _ => False end.
Proof.
  split; [|vm_compute; reflexivity]. intros idx i Hv Hi. pose proof (valid_length _ _ Hv) as Hl. destruct idx as [|p [|q [|]]]; try discriminate.
  pose proof (valid_nth _ _ 0 Hv ltac:(cbn; lia)) as H0. pose proof (valid_nth _ _ 1 Hv ltac:(cbn; lia)) as H1. cbn in H0, H1, Hi.
  do 5 (destruct p as [|p]; [do 5 (destruct i as [|i]; [do 6 (destruct q as [|q]; [reflexivity|]); lia|]); lia|]). lia.
Qed.
(** with zero padding the borders produce details (mode "zero" is excluded for a reason) *)
Theorem C63_zero_mode_refuted : match wavedec2 (exRows 5 6) exH (Some "zero"%string) (Some 1%Z) AxNone with
  | Ok c => match pc_items c with [PT _; PTup [h; v; d]] => zero_tensor h = false | _ => False end
  | Raise _ => False end.
Proof. vm_compute. reflexivity. Qed.
