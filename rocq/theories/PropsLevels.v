(** C57: a multi-level analysis is the repetition of shorter ones. *)
From Coq Require Import List Arith ZArith Lia Bool String.
From Verif Require Import Base Sums Tensor TensorFacts Util Perm Plumb Accept Spec Conv1 PadFacts CoreFacts Analysis AnalysisInv PRKernel Synthesis Filters Wave1 Wave1Inv Rec1 Rec1Inv Lin Examples Props1 Conv2 Conv3 Spec2 WaveN RecN Props2 Sep SpecSep SepFacts PropsSep Unified.
Import ListNotations.

Section C57.
Context {K : CRing}.
Implicit Types x y t : tensor K.
Implicit Types w : wavelet K.

Lemma approx_add (lo : list K) m nax i j x : approx lo m nax (i + j) x = approx lo m nax j (approx lo m nax i x).
Proof.
  induction j as [|j IH]; [rewrite Nat.add_0_r; reflexivity|]. rewrite Nat.add_succ_r, !approx_S, IH. reflexivity.
Qed.
Lemma detail_add (lo : list K) fs m nax i j x : 1 <= j -> detail lo fs m nax (i + j) x = detail lo fs m nax j (approx lo m nax i x).
Proof. intros Hj. unfold detail. replace (i + j - 1) with (i + (j - 1)) by lia. rewrite approx_add. reflexivity. Qed.
Lemma tdetails_add T (lo hi : list K) m nax i j x : 1 <= j ->
  tdetails T lo hi m nax (i + j) x = tdetails T lo hi m nax j (approx lo m nax i x).
Proof.
  intros Hj. destruct T; cbn [tdetails]; unfold details2, details3, detailsN; rewrite ?detail_add by exact Hj; try reflexivity.
  all: f_equal; apply map_ext; intros k; rewrite detail_add by exact Hj; reflexivity.
Qed.
Lemma tspec_add T (lo hi : list K) m nax i j x :
  tspec T lo hi m nax (i + j) x
  = mkPC (pc_is_list (tspec T lo hi m nax i x)) (pc_items (tspec T lo hi m nax j (approx lo m nax i x)) ++ tl (pc_items (tspec T lo hi m nax i x))).
Proof.
  unfold tspec. cbn [pc_is_list pc_items tl app]. f_equal. f_equal; [rewrite approx_add; reflexivity|].
  rewrite seq_app, rev_app_distr, map_app. f_equal. rewrite !map_rev. f_equal.
  replace (1 + i) with (i + 1) by lia.
  assert (G : forall n s, 1 <= s -> map (fun k => tdetails T lo hi m nax k x) (seq (i + s) n) = map (fun k => tdetails T lo hi m nax k (approx lo m nax i x)) (seq s n)).
  { clear. induction n as [|n IH]; intros s Hs; cbn [seq map]; [reflexivity|]. rewrite tdetails_add by exact Hs. f_equal. rewrite <- IH by lia. f_equal. f_equal. lia. }
  apply G. lia.
Qed.

Lemma len_after_add L i j n : len_after L (i + j) n = len_after L j (len_after L i n).
Proof. revert n. induction i as [|i IH]; intros n; cbn; auto. Qed.
Lemma levels_ok_add m L i j n : levels_ok m L (i + j) n <-> levels_ok m L i n /\ levels_ok m L j (len_after L i n).
Proof.
  unfold levels_ok. split.
  - intros H. split; [intros k Hk; apply H; lia|]. intros k Hk. rewrite <- len_after_add. apply H. lia.
  - intros [H1 H2] k Hk. destruct (Nat.lt_ge_cases k i) as [Hi|Hi]; [auto|]. replace k with (i + (k - i)) by lia. rewrite len_after_add. apply H2. lia.
Qed.
Lemma levels_all_add m L i j ns : levels_all m L (i + j) ns <-> levels_all m L i ns /\ levels_all m L j (map (len_after L i) ns).
Proof.
  unfold levels_all. rewrite Forall_map. split.
  - intros H. split; eapply Forall_impl; try exact H; cbv beta; intros n Hn; apply levels_ok_add in Hn; tauto.
  - intros [H1 H2]. rewrite Forall_forall in *. intros n Hn. apply levels_ok_add. auto.
Qed.


(** [l1] levels of x, then [l2] levels of the approximation: the coefficients of [l1 + l2] levels of x *)
Theorem C57_levels_compose T x w m L l1 l2 A D b c2 : wf x ->
  List.length (dec_lo w) = L -> List.length (dec_hi w) = L -> 2 <= L -> Nat.even L = true ->
  (0 <= l1)%Z -> (0 <= l2)%Z -> (is3 T = true -> (0 < l1)%Z /\ (0 < l2)%Z) ->
  analyse T x w (Some (mode_name m)) (Some l1) = Ok (mkPC b (PT A :: D)) ->
  analyse T A w (Some (mode_name m)) (Some l2) = Ok c2 ->
  analyse T x w (Some (mode_name m)) (Some (l1 + l2)%Z) = Ok (mkPC b (pc_items c2 ++ D)).
Proof.
  intros Hw H1 H2 HL He Hl1 Hl2 H3 HA HB.
  edestruct (analyse_inv T x w m L (Some l1)) with (8 := HA) as (Hd & axes & Hh & Hl & Hax & HJ); try eassumption.
  { intros E. right. exists l1. destruct (H3 E). auto. } { discriminate. }
  cbv zeta in HJ. destruct HJ as (_ & _ & Hlev & Hc). set (nax := map (norm_axis (rank x)) axes) in *. cbn [num_levels] in *.
  assert (HA' : A = approx (dec_lo w) m nax (Z.to_nat l1) x /\ D = map (fun j => tdetails T (dec_lo w) (dec_hi w) m nax j x) (rev (seq 1 (Z.to_nat l1)))
     /\ b = pc_is_list (tspec T (dec_lo w) (dec_hi w) m nax (Z.to_nat l1) x)).
  { unfold tspec in Hc |- *. injection Hc as E1 E2 E3. auto. }
  destruct HA' as (EA & ED & Eb).
  pose proof (good_axes_ok _ _ Hax) as Hg. fold nax in Hg.
  assert (HwA : wf A) by (rewrite EA; apply approx_wf; exact Hw).
  destruct (analyse_inv T A w m L (Some l2) c2 HwA H1 H2 HL He) with (3 := HB) as (Hd' & axes' & Hh' & Hl' & Hax' & HJ').
  { intros E. right. exists l2. destruct (H3 E). auto. } { discriminate. }
  rewrite Hh in Hh'. injection Hh' as <-. cbv zeta in HJ'. destruct HJ' as (_ & _ & Hlev' & Hc').
  assert (Hr : rank A = rank x) by (rewrite EA; apply approx_rank). rewrite Hr in *. fold nax in Hlev', Hc'. cbn [num_levels] in Hlev', Hc'.
  assert (Hsz : gather nax 0 (shp A) = map (len_after L (Z.to_nat l1)) (gather nax 0 (shp x))).
  { rewrite EA. apply (approx_sizes _ _ L); auto. }
  rewrite Hsz in Hlev'.
  rewrite (analyse_ok T x w m L (Some (l1 + l2)%Z) axes); auto.
  - fold nax. cbn [num_levels]. rewrite Z2Nat.inj_add by assumption. rewrite tspec_add. rewrite Hc', <- EA. f_equal. f_equal; [symmetry; exact Eb|].
    f_equal. rewrite ED. reflexivity.
  - intros E. cbn [num_levels]. destruct (H3 E). lia.
  - discriminate.
  - fold nax. cbn [num_levels]. rewrite Z2Nat.inj_add by assumption. apply levels_all_add. auto.
Qed.

(** and conversely: the first [l1] levels of a longer analysis are the [l1]-level analysis of x, the rest is the
    analysis of its approximation.  In particular the details of a level do not depend on how many levels follow. *)
Theorem C57_levels_split T x w m L l1 l2 c : wf x ->
  List.length (dec_lo w) = L -> List.length (dec_hi w) = L -> 2 <= L -> Nat.even L = true ->
  (0 <= l1)%Z -> (0 <= l2)%Z -> (is3 T = true -> (0 < l1)%Z /\ (0 < l2)%Z) ->
  analyse T x w (Some (mode_name m)) (Some (l1 + l2)%Z) = Ok c ->
  exists A D c2, analyse T x w (Some (mode_name m)) (Some l1) = Ok (mkPC (pc_is_list c) (PT A :: D)) /\
    List.length D = Z.to_nat l1 /\
    analyse T A w (Some (mode_name m)) (Some l2) = Ok c2 /\ c = mkPC (pc_is_list c) (pc_items c2 ++ D).
Proof.
  intros Hw H1 H2 HL He Hl1 Hl2 H3 H.
  destruct (analyse_inv T x w m L (Some (l1 + l2)%Z) c Hw H1 H2 HL He) with (3 := H) as (Hd & axes & Hh & Hl & Hax & HJ).
  { intros E. right. exists (l1 + l2)%Z. destruct (H3 E). split; [reflexivity|lia]. } { discriminate. }
  cbv zeta in HJ. destruct HJ as (_ & _ & Hlev & Hc). set (nax := map (norm_axis (rank x)) axes) in *. cbn [num_levels] in *.
  rewrite Z2Nat.inj_add in Hlev, Hc by assumption. apply levels_all_add in Hlev as [Hv1 Hv2].
  pose proof (good_axes_ok _ _ Hax) as Hg. fold nax in Hg.
  set (A := approx (dec_lo w) m nax (Z.to_nat l1) x).
  assert (Hr : rank A = rank x) by apply approx_rank.
  assert (Hsz : gather nax 0 (shp A) = map (len_after L (Z.to_nat l1)) (gather nax 0 (shp x))).
  { apply (approx_sizes _ _ L); auto. }
  exists A, (tl (pc_items (tspec T (dec_lo w) (dec_hi w) m nax (Z.to_nat l1) x))), (tspec T (dec_lo w) (dec_hi w) m nax (Z.to_nat l2) A).
  split; [|split; [|split]].
  - rewrite (analyse_ok T x w m L (Some l1) axes); auto.
    + fold nax. cbn [num_levels]. rewrite Hc. reflexivity.
    + intros E. cbn [num_levels]. destruct (H3 E). lia.
    + discriminate.
  - unfold tspec. cbn [pc_items tl]. rewrite map_length, rev_length, seq_length. reflexivity.
  - rewrite (analyse_ok T A w m L (Some l2) axes); rewrite ?Hr; auto.
    + apply approx_wf. exact Hw.
    + unfold tdtype, A. rewrite approx_ttag. exact Hd.
    + intros E. cbn [num_levels]. destruct (H3 E). lia.
    + discriminate.
    + fold nax. rewrite Hsz. exact Hv2.
  - rewrite Hc at 1. rewrite tspec_add. rewrite Hc. reflexivity.
Qed.
End C57.

(** instances: 3 = 1 + 2 levels of a [2;13] tensor (odd sizes inside), the separable 2d transform with a batch axis in the middle *)
Theorem ex_C57 :
  match analyse (Twavedec (-1)) (exT [2; 13]) exW4 (Some "symmetric"%string) (Some 1%Z) with
  | Ok (mkPC b (PT A :: D)) =>
      match analyse (Twavedec (-1)) A exW4 (Some "symmetric"%string) (Some 2%Z) with
      | Ok c2 => analyse (Twavedec (-1)) (exT [2; 13]) exW4 (Some "symmetric"%string) (Some 3%Z) = Ok (mkPC b (pc_items c2 ++ D)) /\ List.length (pc_items c2) = 3
      | Raise _ => False end
  | _ => False end.
Proof. vm_compute. split; reflexivity. Qed.
Theorem ex_C57_fs :
  match analyse (Tfswavedec2 (AxSeq [0%Z; 2%Z])) (exT [6; 2; 7]) exW2 (Some "reflect"%string) (Some 1%Z) with
  | Ok (mkPC b (PT A :: D)) =>
      match analyse (Tfswavedec2 (AxSeq [0%Z; 2%Z])) A exW2 (Some "reflect"%string) (Some 1%Z) with
      | Ok c2 => analyse (Tfswavedec2 (AxSeq [0%Z; 2%Z])) (exT [6; 2; 7]) exW2 (Some "reflect"%string) (Some 2%Z) = Ok (mkPC b (pc_items c2 ++ D))
      | Raise _ => False end
  | _ => False end.
Proof. vm_compute. reflexivity. Qed.
