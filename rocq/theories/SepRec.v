(** Separable synthesis: one-axis inverse steps, and perfect reconstruction of the separable transforms. *)
From Coq Require Import List Arith ZArith Lia Bool String Ascii.
From Coq Require Import ZifyNat ZifyBool.
From Verif Require Import Base Sums Tensor TensorFacts Util Perm Plumb Accept Spec Spec2 SpecSep Conv1 PadFacts CoreFacts Analysis AnalysisInv PRKernel Synthesis Filters Wave1 Wave1Inv Rec1 Rec1Inv Lin Conv2 WaveN RecN Sep SepFacts.
Import ListNotations.
Ltac Zify.zify_post_hook ::= Z.div_mod_to_equations.

Section SR.
Context {K : CRing}.
Add Ring Kring : (cr_th K).
Implicit Types t u x A B : tensor K.
Implicit Types w : wavelet K.

(** * transposing an axis to the end *)
Definition pswap (r a : nat) : list nat := map (swapn (r - 1) a) (seq 0 r).
Definition Fr (r a : nat) (l : list nat) : list nat := firstn (r - 1) (gather (pswap r a) 0 l).
Lemma pswap_perm r a : a < r -> is_perm (pswap r a) r.
Proof. intros H. apply swap_perm; lia. Qed.
Lemma gather_pswap r a l : a < r -> gather (pswap r a) 0 l = Fr r a l ++ [nth a l 0].
Proof.
  intros Ha. unfold Fr. rewrite <- (firstn_skipn (r - 1) (gather (pswap r a) 0 l)) at 1. f_equal.
  unfold pswap, gather. rewrite map_map. assert (Es : seq 0 r = seq 0 (r - 1) ++ [r - 1]) by (rewrite <- seq_S; f_equal; lia).
  rewrite Es, map_app. cbn [map].
  rewrite skipn_app_exact by (rewrite map_length, seq_length; reflexivity). unfold swapn. rewrite Nat.eqb_refl. reflexivity.
Qed.
Lemma Fr_updn r a l v : a < r -> List.length l = r -> Fr r a (updn a v l) = Fr r a l.
Proof.
  intros Ha Hl. unfold Fr. unfold pswap.
  assert (Hs : map (swapn (r - 1) a) (seq 0 r) = map (swapn a (r - 1)) (seq 0 r)).
  { apply map_ext. intros x. unfold swapn. destruct (Nat.eqb_spec x a), (Nat.eqb_spec x (r - 1)); lia. }
  rewrite Hs. rewrite gather_swap_updn by lia. 
  assert (G : forall n (l : list nat) v, firstn n (updn n v l) = firstn n l).
  { induction n as [|n IH]; intros [|b l'] v'; cbn; try reflexivity. rewrite IH. reflexivity. }
  apply G.
Qed.
Lemma Fr_length r a l : a < r -> List.length (Fr r a l) = r - 1.
Proof. intros Ha. unfold Fr. rewrite firstn_length, gather_length. unfold pswap. rewrite map_length, seq_length. lia. Qed.
Lemma pswap_invol r a l : a < r -> List.length l = r -> gather (pswap r a) 0 (gather (pswap r a) 0 l) = l.
Proof.
  intros Ha Hl. transitivity (unperm (pswap r a) (gather (pswap r a) 0 l)).
  - symmetry. apply unperm_swap; [lia|exact Ha|]. rewrite gather_length. unfold pswap. rewrite map_length, seq_length. reflexivity.
  - apply (unperm_gather _ r); [apply pswap_perm; exact Ha|exact Hl].
Qed.

Lemma shp_transpose_last t a : a < rank t -> shp (transpose t (rank t - 1) a) = Fr (rank t) a (shp t) ++ [nth a (shp t) 0].
Proof. intros Ha. unfold transpose, permute_nat. rewrite shp_make. fold (pswap (rank t) a). apply gather_pswap. exact Ha. Qed.
Lemma get_transpose_last t a idx : a < rank t -> valid idx (shp t) ->
  get (transpose t (rank t - 1) a) (Fr (rank t) a idx ++ [nth a idx 0]) = get t idx.
Proof.
  intros Ha Hv. rewrite <- gather_pswap by exact Ha. unfold transpose. fold (pswap (rank t) a). apply get_permute; [apply pswap_perm; exact Ha|exact Hv].
Qed.
Lemma transpose_back (U : tensor K) s a n : a < List.length s -> shp U = Fr (List.length s) a s ++ [n] ->
  shp (transpose U (List.length s - 1) a) = updn a n s /\
  (forall idx, valid idx (updn a n s) -> get (transpose U (List.length s - 1) a) idx = get U (Fr (List.length s) a idx ++ [nth a idx 0])).
Proof.
  intros Ha Hs. set (r := List.length s) in *.
  assert (Hr : rank U = r) by (unfold rank; rewrite Hs, app_length, Fr_length by exact Ha; cbn; lia).
  assert (HU : shp U = gather (pswap r a) 0 (updn a n s)).
  { rewrite gather_pswap by exact Ha. rewrite Fr_updn by (auto). rewrite nth_updn_eq by exact Ha. exact Hs. }
  assert (Hsh : shp (transpose U (r - 1) a) = updn a n s).
  { unfold transpose, permute_nat. rewrite shp_make, Hr. fold (pswap r a). rewrite HU. apply pswap_invol; [exact Ha|]. rewrite updn_length. reflexivity. }
  split; [exact Hsh|]. intros idx Hv. unfold transpose. rewrite Hr. fold (pswap r a).
  assert (Hli : List.length idx = r) by (apply valid_length in Hv; rewrite updn_length in Hv; exact Hv).
  rewrite get_permute'.
  - unfold pswap at 1. rewrite unperm_swap by lia. fold (pswap r a). rewrite gather_pswap by exact Ha. reflexivity.
  - rewrite Hr. apply pswap_perm. exact Ha.
  - rewrite HU, pswap_invol by (auto; rewrite updn_length; reflexivity). exact Hv.
Qed.

(** the flattened matrix [prod of the other sizes; size of axis a] *)
Definition flat a t : tensor K := mkT (ttag t) [prodl (Fr (rank t) a (shp t)); nth a (shp t) 0] (dat (transpose t (rank t - 1) a)).
Lemma wf_flat a t : a < rank t -> wf (flat a t).
Proof.
  intros Ha. unfold flat, wf. cbn [dat shp]. pose proof (wf_make (ttag t) (gather (pswap (rank t) a) 0 (shp t)) (fun idx => get t (unperm (pswap (rank t) a) idx))) as Hw.
  unfold wf in Hw. change (tmake _ _ _) with (transpose t (rank t - 1) a) in Hw. rewrite Hw, shp_transpose_last by exact Ha.
  rewrite prodl_app, !prodl_cons, prodl_nil. lia.
Qed.
Lemma valid_Fr r a idx s : a < r -> List.length s = r -> valid idx s -> valid (Fr r a idx) (Fr r a s).
Proof.
  intros Ha Hs Hv. assert (Hg : valid (gather (pswap r a) 0 idx) (gather (pswap r a) 0 s)) by (apply (valid_gather _ r); auto using pswap_perm).
  rewrite !gather_pswap in Hg by exact Ha. apply Forall2_app_inv_l in Hg as (l1 & l2 & H1 & H2 & E).
  apply app_inj_tail_iff || idtac. assert (Hl : List.length l1 = List.length (Fr r a s)) by (apply F2_len in H1; rewrite <- H1, !Fr_length by exact Ha; reflexivity).
  assert (l1 = Fr r a s) as <-; [|exact H1]. apply (f_equal (firstn (List.length l1))) in E.
  rewrite (firstn_app_exact l1) in E by reflexivity. rewrite firstn_app_exact in E by congruence. symmetry. exact E.
Qed.

Lemma get_flat a t idx : a < rank t -> valid idx (shp t) ->
  get (flat a t) [ravel (Fr (rank t) a (shp t)) (Fr (rank t) a idx); nth a idx 0] = get t idx.
Proof.
  intros Ha Hv. unfold flat. rewrite (get_fold (ttag t) (Fr (rank t) a (shp t)) [nth a (shp t) 0] _ (Fr (rank t) a idx) [nth a idx 0]).
  - rewrite <- (get_transpose_last t a idx Ha Hv). rewrite <- shp_transpose_last by exact Ha.
    change (ttag t) with (ttag (transpose t (rank t - 1) a)) at 1. rewrite mkT_eta. reflexivity.
  - apply valid_Fr; [exact Ha|reflexivity|exact Hv].
Qed.
Lemma flat_code a t c : 1 <= c <= rank t -> a = rank t - c -> nth a (shp t) 0 <> 0 ->
  (let* T := transpose_last t c in reshape_flat T) = Ok (flat a t).
Proof.
  intros Hc -> Hn. unfold transpose_last. replace (Nat.ltb 0 c && Nat.leb c (rank t))%bool with true.
  2:{ symmetry. apply andb_true_iff. split; [apply Nat.ltb_lt|apply Nat.leb_le]; lia. }
  cbn [rbind]. set (T := transpose t (rank t - 1) (rank t - c)). unfold reshape_flat.
  assert (HT : shp T = Fr (rank t) (rank t - c) (shp t) ++ [nth (rank t - c) (shp t) 0]) by (apply shp_transpose_last; lia).
  assert (Hd : dim_last T 1 = nth (rank t - c) (shp t) 0).
  { unfold dim_last, rank. rewrite HT, app_length. cbn [List.length]. rewrite app_nth2 by lia. replace (_ - _ - _) with 0 by lia. reflexivity. }
  rewrite Hd. destruct (Nat.eqb_spec (nth (rank t - c) (shp t) 0) 0) as [E|_]; [contradiction|].
  assert (Hp : prodl (shp T) / nth (rank t - c) (shp t) 0 = prodl (Fr (rank t) (rank t - c) (shp t))).
  { rewrite HT, prodl_app, prodl_cons, prodl_nil, Nat.mul_1_r. apply Nat.div_mul. exact Hn. }
  rewrite Hp. rewrite reshape_ok; [reflexivity|]. rewrite HT, prodl_app, !prodl_cons, prodl_nil. lia.
Qed.

Lemma sep_pair_ok w L c a big lo hi : slice_to big (shp hi) = Ok lo -> wf lo -> wf hi -> shp lo = shp hi -> ttag lo = ttag hi ->
  is_dtype_supported (tdtype lo) = true -> List.length (rec_lo w) = L -> List.length (rec_hi w) = L -> 2 <= L ->
  1 <= c <= rank hi -> a = rank hi - c -> 1 <= nth a (shp hi) 0 ->
  sep_idwt_pair w c big hi = Ok (idwt1 L (rec_lo w) (rec_hi w) a lo hi (2 * nth a (shp hi) 0 + 2 - L)).
Proof.
  intros Hsl Hwl Hwh Hs Htag Hd H1 H2 HL Hc Ha Hn. unfold sep_idwt_pair. rewrite Hsl. cbn [rbind].
  assert (Hrl : rank lo = rank hi) by (unfold rank; rewrite Hs; reflexivity).
  assert (Ear : a < rank hi) by lia.
  pose proof (flat_code a lo c ltac:(lia) ltac:(lia) ltac:(rewrite Hs; lia)) as Fl.
  pose proof (flat_code a hi c ltac:(lia) ltac:(lia) ltac:(lia)) as Fh.
  assert (HTl : transpose_last lo c = Ok (transpose lo (rank lo - 1) a)).
  { unfold transpose_last. replace (Nat.ltb 0 c && Nat.leb c (rank lo))%bool with true; [rewrite Hrl; subst a; reflexivity|].
    symmetry. apply andb_true_iff. split; [apply Nat.ltb_lt|apply Nat.leb_le]; lia. }
  assert (HTh : transpose_last hi c = Ok (transpose hi (rank hi - 1) a)).
  { unfold transpose_last. replace (Nat.ltb 0 c && Nat.leb c (rank hi))%bool with true; [subst a; reflexivity|].
    symmetry. apply andb_true_iff. split; [apply Nat.ltb_lt|apply Nat.leb_le]; lia. }
  rewrite HTl in Fl |- *. rewrite HTh in Fh |- *. cbn [rbind] in Fl, Fh |- *. rewrite Fl, Fh. cbn [rbind].
  set (n := nth a (shp hi) 0) in *. set (n' := 2 * n + 2 - L).
  assert (Hfl : shp (flat a lo) = shp (flat a hi)) by (unfold flat; cbn [shp]; rewrite Hrl, Hs; reflexivity).
  pose proof (waverec_ok (flat a lo) [flat a hi] w L (-1)%Z AxNone) as Hrec. cbn [map] in Hrec. rewrite Hrec; clear Hrec; auto.
  2:{ apply wf_flat. lia. }
  2:{ split; cbn; lia. }
  2:{ constructor; [|constructor]. split; [apply wf_flat; lia|]. split; [reflexivity|]. split; [rewrite Hfl; reflexivity|]. symmetry. exact Htag. }
  2:{ cbn [lens_fit]. change (norm_axis (rank (flat a lo)) (-1)) with 1. unfold alen. rewrite Hfl. split; [reflexivity|]. split; [exact Hn|exact I]. }
  cbn [rbind]. change (norm_axis (rank (flat a lo)) (-1)) with 1. cbn [waverec_spec rec_len]. 
  replace (2 * nth 1 (shp (flat a lo)) 0 + 2 - L) with n' by (rewrite Hfl; reflexivity).
  set (V := idwt1 L (rec_lo w) (rec_hi w) 1 (flat a lo) (flat a hi) n').
  assert (HV : shp V = [prodl (Fr (rank hi) a (shp hi)); n']).
  { unfold V, idwt1, idwt_axes. rewrite shp_make, Hfl. reflexivity. }
  assert (HdV : dim_last V 1 = n') by (unfold dim_last, rank; rewrite HV; reflexivity).
  assert (HsT : shp (transpose lo (rank lo - 1) a) = Fr (rank hi) a (shp hi) ++ [n]).
  { rewrite shp_transpose_last by lia. rewrite Hrl, Hs. reflexivity. }
  assert (HrT : rank (transpose lo (rank lo - 1) a) = rank hi) by (unfold rank at 1; rewrite HsT, app_length, Fr_length by lia; cbn; lia).
  rewrite HrT, HsT, firstn_app_exact by (apply Fr_length; lia).
  rewrite HdV. rewrite reshape_ok by (rewrite HV, prodl_app, !prodl_cons, prodl_nil; lia). cbn [rbind].
  set (U := mkT (ttag V) (Fr (rank hi) a (shp hi) ++ [n']) (dat V)).
  assert (HrU : rank U = rank hi) by (unfold rank at 1; cbn [U shp]; rewrite app_length, Fr_length by lia; cbn; lia).
  unfold transpose_last. rewrite HrU. replace (Nat.ltb 0 c && Nat.leb c (rank hi))%bool with true.
  2:{ symmetry. apply andb_true_iff. split; [apply Nat.ltb_lt|apply Nat.leb_le]; lia. }
  rewrite <- Ha. f_equal. destruct (transpose_back U (shp hi) a n' Ear eq_refl) as [T1 T2]. fold (rank hi) in T1, T2.
  apply t_ext; [apply wf_make|apply wf_make|reflexivity| |].
  - rewrite T1. unfold idwt1, idwt_axes. rewrite shp_make. cbn [upds]. rewrite Hs. reflexivity.
  - intros idx Hv. rewrite T1 in Hv. rewrite (T2 idx Hv).
    assert (Hli : List.length idx = rank hi) by (apply valid_length in Hv; rewrite updn_length in Hv; exact Hv).
    assert (HvF : valid (Fr (rank hi) a idx) (Fr (rank hi) a (shp hi))).
    { rewrite <- (Fr_updn (rank hi) a (shp hi) n') by (auto). apply valid_Fr; [lia|rewrite updn_length; reflexivity|exact Hv]. }
    assert (Hn' : nth a idx 0 < n').
    { pose proof (valid_nth _ _ a Hv) as G. rewrite updn_length, nth_updn_eq in G by exact Ear. apply G. exact Ear. }
    unfold U. rewrite <- (get_fold (ttag V) (Fr (rank hi) a (shp hi)) [n'] (dat V)) by exact HvF.
    rewrite <- HV, mkT_eta. set (b := ravel (Fr (rank hi) a (shp hi)) (Fr (rank hi) a idx)).
    assert (Hb : b < prodl (Fr (rank hi) a (shp hi))) by (apply ravel_lt; exact HvF).
    unfold V, idwt1, idwt_axes. rewrite get_make.
    2:{ rewrite Hfl. cbn [flat shp upds updn]. constructor; [exact Hb|]. constructor; [exact Hn'|constructor]. }
    rewrite get_make by (rewrite Hs; exact Hv).
    assert (Hfib : forall (t : tensor K) k, shp t = shp hi -> k < n -> get (flat a t) [b; k] = get t (updn a k idx)).
    { intros t k Ht Hk. assert (Hrt : rank t = rank hi) by (unfold rank; rewrite Ht; reflexivity).
      assert (Hvk : valid (updn a k idx) (shp t)).
      { rewrite Ht. rewrite <- (updn_same a (shp hi) 0). rewrite <- (updn_updn a (nth a (shp hi) 0) n' (shp hi)). rewrite <- (updn_updn a k (nth a idx 0) idx).
        apply valid_updn; [|exact Hk]. rewrite updn_same. exact Hv. }
      rewrite <- (get_flat a t (updn a k idx)) by (try lia; exact Hvk). rewrite nth_updn_eq by lia.
      rewrite Hrt, Ht, Fr_updn by lia. reflexivity. }
    apply sumf_ext. intros ch Hch. cbn [gather map nth]. rewrite Hfl. cbn [flat shp nth]. rewrite Hs. fold n.
    unfold idwt_op. cbn [sumI]. apply sumf_ext. intros k Hk. cbn [upds updn map2].
    f_equal. destruct ch as [|ch]; [exact (Hfib lo k Hs Hk)|exact (Hfib hi k eq_refl Hk)].
Qed.

End SR.
