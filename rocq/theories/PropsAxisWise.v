(** C76: the n-d analysis functions apply the one-dimensional function to one axis after the other. *)
From Coq Require Import List Arith ZArith Lia Bool String Ascii.
From Verif Require Import Base Sums Tensor TensorFacts Util Perm Plumb Accept Spec Spec2 SpecSep Conv1 PadFacts CoreFacts Analysis AnalysisInv Filters Wave1 Wave1Inv Conv2 Conv3 WaveN Sep SepFacts Props1 Unified.
Import ListNotations.

(** [axis_tree x w m axes Y]: Y "" is the data; wavedec with one level along the last axis splits it into Y "a" and Y "d"; wavedec along
    the axis before splits both again, Y "a" into Y "aa" and Y "da" and so on.  The letters of s belong to the last |s| axes. *)
Definition axis_tree {K : CRing} (x : tensor K) (w : wavelet K) (m : mode) (axes : list Z) (Y : string -> tensor K) : Prop :=
  Y EmptyString = x /\
  forall s, ad_word s -> String.length s < List.length axes ->
    wavedec (Y s) w (Some (mode_name m)) (Some 1%Z) (nth (List.length axes - 1 - String.length s) axes 0%Z)
    = Ok (mkPC true [PT (Y (String "a" s)); PT (Y (String "d" s))]).

(** how wavedec2, wavedec3, fswavedec2 and fswavedec3 arrange the tensors: (approximation, (horizontal, vertical, diagonal)) for
    wavedec2, the dictionary of the mixed words for the other ones *)
Definition collect {K : CRing} (T : transform) (Y : string -> tensor K) : pycoeffs K :=
  match T with
  | Twavedec _ => mkPC true [PT (Y "a"%string); PT (Y "d"%string)]
  | Twavedec2 _ => mkPC false [PT (Y "aa"%string); PTup [Y "da"%string; Y "ad"%string; Y "dd"%string]]
  | Twavedec3 _ => mkPC false [PT (Y "aaa"%string); PDict (map (fun k => (k, Y k)) ["aad"; "ada"; "add"; "daa"; "dad"; "dda"; "ddd"]%string)]
  | Tfswavedec2 _ => mkPC false [PT (Y "aa"%string); PDict (map (fun k => (k, Y k)) ["da"; "ad"; "dd"]%string)]
  | Tfswavedec3 _ => mkPC false [PT (Y "aaa"%string); PDict (map (fun k => (k, Y k)) ["daa"; "ada"; "dda"; "aad"; "dad"; "add"; "ddd"]%string)]
  end.

Section AW.
Context {K : CRing}.
Add Ring Kring : (cr_th K).
Implicit Types x y : tensor K.
Implicit Types w : wavelet K.

Lemma dwt_axes0 m x : wf x -> dwt_axes [] m [] x = x.
Proof.
  intros Hw. apply t_ext; [apply wf_make|exact Hw|reflexivity|reflexivity|].
  intros idx Hv. unfold dwt_axes, along_axes. rewrite get_make by (cbn in Hv; exact Hv). cbn. unfold ext_get. cbn. ring.
Qed.

Lemma skipn_nth_S {X} (l : list X) d k : k < List.length l -> skipn k l = nth k l d :: skipn (S k) l.
Proof. revert k. induction l as [|a l IH]; intros [|k] H; cbn in *; try lia; [reflexivity|]. rewrite IH by lia. reflexivity. Qed.

Lemma adm1 m L n : levels_ok m L 1 n <-> admissible m L n.
Proof. split; [intros H; apply (H 0); lia|]. intros H j Hj. assert (j = 0) by lia. subst. exact H. Qed.
Lemma ad_uncons c s : ad_word (String c s) -> (c = "a" \/ c = "d")%char /\ ad_word s.
Proof. intros H. inversion H; subst. split; assumption. Qed.

Section One.
Variables (x : tensor K) (w : wavelet K) (m : mode) (L : nat) (axes : list Z).
Hypotheses (Hw : wf x) (H1 : List.length (dec_lo w) = L) (H2 : List.length (dec_hi w) = L) (HL : 2 <= L) (He : Nat.even L = true).
Hypothesis (Hax : axes_ok (rank x) axes).
Let nax := map (norm_axis (rank x)) axes.
Let N := List.length axes.
Let F s := dwt_axes (key_filters (dec_lo w) (dec_hi w) s) m (skipn (N - String.length s) nax) x.

Lemma F_nil : F EmptyString = x.
Proof using All. unfold F. cbn [String.length]. rewrite Nat.sub_0_r. unfold nax, N. rewrite skipn_all2 by (rewrite map_length; lia). apply dwt_axes0. exact Hw. Qed.

Lemma F_rank s : rank (F s) = rank x.
Proof using All. unfold F, dwt_axes. apply rank_along. Qed.
Lemma F_tag s : ttag (F s) = ttag x.
Proof using All. reflexivity. Qed.

Lemma good_skip r k l : good_axes r l -> good_axes r (skipn k l).
Proof using All. intros H. revert l H. induction k as [|k IH]; intros l H; [exact H|]. destruct l as [|a l]; [exact H|]. cbn. apply IH. apply (good_cons r a). exact H. Qed.

Lemma F_nth s : String.length s < N -> let a := nth (N - 1 - String.length s) nax 0 in
  nth a (shp (F s)) 0 = nth a (shp x) 0.
Proof using All.
  intros Hs a. unfold F, dwt_axes. rewrite shp_along. apply nth_upds_notin.
  pose proof (good_skip (rank x) (N - 1 - String.length s) nax (good_axes_ok _ _ Hax)) as G.
  rewrite (skipn_nth_S nax 0) in G by (unfold nax; rewrite map_length; fold N; lia). apply good_cons in G as (G & _).
  replace (N - String.length s) with (S (N - 1 - String.length s)) by lia. exact G.
Qed.

Lemma F_step s c : (c = "a" \/ c = "d")%char -> String.length s < N -> let a := nth (N - 1 - String.length s) nax 0 in
  admissible m L (nth a (shp x) 0) ->
  F (String c s) = dwt_axes [if Ascii.eqb c "d" then dec_hi w else dec_lo w] m [a] (F s).
Proof using All.
  intros Hc Hs a Ha. unfold F at 1. cbn [String.length]. rewrite key_filters_cons.
  replace (N - S (String.length s)) with (N - 1 - String.length s) by lia.
  pose proof (good_skip (rank x) (N - 1 - String.length s) nax (good_axes_ok _ _ Hax)) as G.
  rewrite (skipn_nth_S nax 0) in * by (unfold nax; rewrite map_length; fold N; lia). fold a in G |- *.
  replace (S (N - 1 - String.length s)) with (N - String.length s) in * by lia.
  rewrite dwt_axes_cons; [reflexivity|exact G| |apply (adm_extendable m L); assumption].
  rewrite key_filters_length, skipn_length. unfold nax. rewrite map_length. fold N. lia.
Qed.

Lemma nth_nax k : k < N -> nth k nax 0 = norm_axis (rank x) (nth k axes 0%Z).
Proof using All. intros H. unfold nax. rewrite (nth_indep _ 0 (norm_axis (rank x) 0%Z)) by (rewrite map_length; exact H). apply map_nth. Qed.

Lemma axis_okk k : k < N -> axis_ok (rank x) (nth k axes 0%Z).
Proof using All. intros H. destruct Hax as [G _]. rewrite Forall_forall in G. apply G. apply nth_In. exact H. Qed.

Lemma one_level y axis : wf y -> axis_ok (rank y) axis -> is_dtype_supported (tdtype y) = true ->
  let a := norm_axis (rank y) axis in admissible m L (nth a (shp y) 0) ->
  wavedec y w (Some (mode_name m)) (Some 1%Z) axis = Ok (mkPC true [PT (dwt_axes [dec_lo w] m [a] y); PT (dwt_axes [dec_hi w] m [a] y)]).
Proof using All.
  intros Hy Ho Hd a Ha. rewrite (wavedec_ok y w m L 1 (Some 1%Z) axis); auto; [reflexivity|]. apply adm1. exact Ha.
Qed.

Lemma tree_F : is_dtype_supported (tdtype x) = true -> Forall (admissible m L) (gather nax 0 (shp x)) -> axis_tree x w m axes F.
Proof using All.
  intros Hd Ha. split; [apply F_nil|]. intros s Hs Hl. fold N in Hl |- *.
  assert (Hk : N - 1 - String.length s < N) by lia.
  assert (A : admissible m L (nth (nth (N - 1 - String.length s) nax 0) (shp x) 0)).
  { rewrite Forall_forall in Ha. apply Ha. unfold gather. apply (in_map (fun d => nth d (shp x) 0)). apply nth_In. unfold nax. rewrite map_length. exact Hk. }
  assert (Ax : axis_ok (rank (F s)) (nth (N - 1 - String.length s) axes 0%Z)) by (rewrite F_rank; apply axis_okk; exact Hk).
  rewrite (one_level (F s)); [| apply wf_make| exact Ax | exact Hd |].
  - rewrite F_rank, <- nth_nax by exact Hk. pose proof (F_step s "a" (or_introl eq_refl) Hl A) as Sa. pose proof (F_step s "d" (or_intror eq_refl) Hl A) as Sd.
    cbn [Ascii.eqb Bool.eqb] in Sa, Sd. rewrite <- Sa, <- Sd. reflexivity.
  - rewrite F_rank, <- nth_nax by exact Hk. rewrite F_nth by exact Hl. exact A.
Qed.

Lemma tree_eq Y : axis_tree x w m axes Y -> forall s, ad_word s -> String.length s <= N ->
  Y s = F s /\ forall k, N - String.length s <= k < N -> is_dtype_supported (tdtype x) = true /\ admissible m L (nth (nth k nax 0) (shp x) 0).
Proof using All.
  intros [T0 T1]. induction s as [|c s IH]; intros Hs Hl.
  - split; [rewrite T0, F_nil; reflexivity|]. cbn [String.length] in *. intros k Hk. lia.
  - apply ad_uncons in Hs as [Hc Hs]. cbn [String.length] in Hl. destruct (IH Hs ltac:(lia)) as [E A].
    pose proof (T1 s Hs ltac:(fold N; lia)) as W. fold N in W. rewrite E in W.
    assert (Hk : N - 1 - String.length s < N) by lia.
    destruct (wavedec_inv (F s) w m L (Some 1%Z) _ _ (wf_make _ _ _) H1 H2 HL He W) as (Wd & Wa & J & WJ & Wl).
    cbn [lev_of] in WJ. change (Z.to_nat 1) with 1 in WJ. subst J. rewrite F_rank, <- nth_nax in Wl by exact Hk. rewrite F_nth in Wl by lia. apply adm1 in Wl.
    split.
    + rewrite (one_level (F s)) in W; [|apply wf_make|exact Wa|exact Wd|rewrite F_rank, <- nth_nax by exact Hk; rewrite F_nth by lia; exact Wl].
      rewrite F_rank, <- nth_nax in W by exact Hk. pose proof (F_step s "a" (or_introl eq_refl) ltac:(lia) Wl) as Sa. pose proof (F_step s "d" (or_intror eq_refl) ltac:(lia) Wl) as Sd.
      cbn [Ascii.eqb Bool.eqb] in Sa, Sd. rewrite <- Sa, <- Sd in W.
      apply ok_inj in W. injection W as Wa' Wd'. destruct Hc as [-> | ->]; congruence.
    + intros k Hk'. cbn [String.length] in Hk'. destruct (Nat.eq_dec k (N - 1 - String.length s)) as [->|Hne].
      * split; [exact Wd|exact Wl].
      * apply A. lia.
Qed.
End One.

Lemma word_rep n : ad_word (string_of_list_ascii (repeat "a"%char n)) /\ String.length (string_of_list_ascii (repeat "a"%char n)) = n.
Proof. induction n as [|n [I1 I2]]; cbn; [split; [constructor|reflexivity]|]. split; [constructor; [now left|exact I1]|]. f_equal. exact I2. Qed.

Lemma adw s : forallb (fun c => Ascii.eqb c "a" || Ascii.eqb c "d") (list_ascii_of_string s) = true -> ad_word s.
Proof.
  intros H. unfold ad_word. rewrite forallb_forall in H. apply Forall_forall. intros c Hc. specialize (H c Hc).
  apply orb_prop in H as [H|H]; apply Ascii.eqb_eq in H; auto.
Qed.

(** ** C76 *)
Theorem C76_axis_by_axis T x w m L axes c : wf x -> List.length (dec_lo w) = L -> List.length (dec_hi w) = L -> 2 <= L -> Nat.even L = true ->
  hint_axes (thint T) (tdim T) = Some axes -> List.length axes = tdim T -> axes_ok (rank x) axes ->
  (analyse T x w (Some (mode_name m)) (Some 1%Z) = Ok c <-> exists Y, axis_tree x w m axes Y /\ c = collect T Y).
Proof.
  intros Hw H1 H2 HL He Hh Hla Hax.
  set (nax := map (norm_axis (rank x)) axes). set (F := fun s => dwt_axes (key_filters (dec_lo w) (dec_hi w) s) m (skipn (List.length axes - String.length s) nax) x).
  assert (Hlev : forall ns, levels_all m L 1 ns <-> Forall (admissible m L) ns) by (intros ns; unfold levels_all; split; intros G; eapply Forall_impl; try exact G; intros n; apply adm1).
  assert (HF : tspec T (dec_lo w) (dec_hi w) m nax 1 x = collect T F).
  { clear Hh. subst nax F. destruct T as [a|h|h|h|h]; cbn [tdim] in Hla; rewrite Hla; destruct axes as [|b1 [|b2 [|b3 [|? ?]]]]; try discriminate Hla; reflexivity. }
  split.
  - intros E. destruct (analyse_inv T x w m L (Some 1%Z) c Hw H1 H2 HL He) as (Hd & axes' & Hh' & _ & _ & _ & _ & Hl & Hc); [intros _; right; exists 1%Z; split; [reflexivity|lia]|discriminate|exact E|].
    rewrite Hh in Hh'. injection Hh' as <-. cbn [num_levels] in Hl, Hc. change (Z.to_nat 1) with 1 in Hl, Hc. apply Hlev in Hl.
    exists F. split; [apply (tree_F x w m L axes Hw H1 H2 HL He Hax Hd Hl)|]. rewrite Hc. exact HF.
  - intros (Y & HY & ->). destruct (word_rep (List.length axes)) as [Wa Wl].
    destruct (tree_eq x w m L axes Hw H1 H2 HL He Hax Y HY _ Wa ltac:(lia)) as [_ A]. rewrite Wl in A.
    assert (HN : 0 < List.length axes) by (rewrite Hla; destruct T; cbn; lia).
    assert (E : forall s, ad_word s -> String.length s = List.length axes -> Y s = F s) by (intros s Hs Hls; apply (tree_eq x w m L axes Hw H1 H2 HL He Hax Y HY s Hs); lia).
    rewrite (analyse_ok T x w m L (Some 1%Z) axes); auto.
    + cbn [num_levels]. change (Z.to_nat 1) with 1. fold nax. rewrite HF. f_equal. rewrite Hla in E.
      destruct T; cbn [tdim] in E; cbn [collect map]; rewrite !E by (try (apply adw); reflexivity); reflexivity.
    + apply (A 0). lia.
    + discriminate.
    + cbn [num_levels]. change (Z.to_nat 1) with 1. apply Hlev. apply Forall_forall. intros n Hn. unfold gather in Hn. apply in_map_iff in Hn as (d & <- & Hd).
      apply (In_nth _ _ 0) in Hd as (k & Hk & <-). rewrite map_length in Hk. apply (A k). lia.
Qed.

(** the two-dimensional case spelled out: columns of rows *)
Theorem C76_wavedec2 x w m L a1 a2 c : wf x -> List.length (dec_lo w) = L -> List.length (dec_hi w) = L -> 2 <= L -> Nat.even L = true ->
  axes_ok (rank x) [a1; a2] ->
  let dwt y axis := wavedec y w (Some (mode_name m)) (Some 1%Z) axis in
  (wavedec2 x w (Some (mode_name m)) (Some 1%Z) (AxSeq [a1; a2]) = Ok c <->
   exists lo hi ll hl lh hh, dwt x a2 = Ok (mkPC true [PT lo; PT hi]) /\ dwt lo a1 = Ok (mkPC true [PT ll; PT hl]) /\
     dwt hi a1 = Ok (mkPC true [PT lh; PT hh]) /\ c = mkPC false [PT ll; PTup [hl; lh; hh]]).
Proof.
  intros Hw H1 H2 HL He Hax dwt. pose proof (C76_axis_by_axis (Twavedec2 (AxSeq [a1; a2])) x w m L [a1; a2] c Hw H1 H2 HL He eq_refl eq_refl Hax) as G. cbn [analyse] in G. rewrite G.
  split.
  - intros (Y & [Y0 Y1] & ->). exists (Y "a"%string), (Y "d"%string), (Y "aa"%string), (Y "da"%string), (Y "ad"%string), (Y "dd"%string).
    split; [|split; [|split; [|reflexivity]]].
    + pose proof (Y1 EmptyString (adw EmptyString eq_refl) ltac:(cbn; lia)) as E. rewrite Y0 in E. exact E.
    + apply (Y1 "a"%string (adw "a"%string eq_refl)). cbn. lia.
    + apply (Y1 "d"%string (adw "d"%string eq_refl)). cbn. lia.
  - intros (lo & hi & ll & hl & lh & hh & E1 & E2 & E3 & ->).
    exists (fun s => if String.eqb s "" then x else if String.eqb s "a" then lo else if String.eqb s "d" then hi else if String.eqb s "aa" then ll
              else if String.eqb s "da" then hl else if String.eqb s "ad" then lh else hh).
    split; [|reflexivity]. split; [reflexivity|]. intros s Hs Hl. cbn in Hl. destruct s as [|c1 [|c2 s]]; [exact E1| |cbn in Hl; lia].
    apply ad_uncons in Hs as [[->| ->] _]; [exact E2|exact E3].
Qed.
End AW.
