(** Batched products with a sparse matrix act on one axis. *)
From Coq Require Import List Arith ZArith Lia Bool String Ring.
From Verif Require Import Base Sums Tensor TensorFacts Util Perm Plumb Spec SpecMat PadFacts CoreFacts SepRec Sparse SparseFacts SparseConv.
Import ListNotations.

Section SMM.
Context {K : CRing}.
Add Ring Kring : (cr_th K).
Implicit Types (m : smat K) (t u : tensor K).

Lemma transpose_comm t a b : transpose t a b = transpose t b a.
Proof. unfold transpose. f_equal. apply map_ext. intros d. unfold swapn. destruct (Nat.eqb_spec d a), (Nat.eqb_spec d b); subst; auto. Qed.
Lemma wf_transpose t a b : wf (transpose t a b).
Proof. apply wf_make. Qed.
Lemma transpose2 t a b : shp t = [a; b] -> shp (transpose t 0 1) = [b; a] /\ forall i j, i < b -> j < a -> get (transpose t 0 1) [i; j] = get t [j; i].
Proof.
  intros Hs. assert (Hr : rank t = 2) by (unfold rank; rewrite Hs; reflexivity). unfold transpose. rewrite Hr. cbn [seq map swapn Nat.eqb]. split.
  - unfold permute_nat. rewrite shp_make. unfold gather. rewrite Hs. reflexivity.
  - intros i j Hi Hj. assert (HP : is_perm [1; 0] (rank t)) by (rewrite Hr; exact (swap_perm 0 1 2 ltac:(lia) ltac:(lia))).
    rewrite get_permute'; [reflexivity|exact HP|]. rewrite Hs. repeat constructor; assumption.
Qed.
Lemma transpose3 t a b c : shp t = [a; b; c] -> shp (transpose t 0 1) = [b; a; c] /\ forall i j k, i < b -> j < a -> k < c -> get (transpose t 0 1) [i; j; k] = get t [j; i; k].
Proof.
  intros Hs. assert (Hr : rank t = 3) by (unfold rank; rewrite Hs; reflexivity). unfold transpose. rewrite Hr. cbn [seq map swapn Nat.eqb]. split.
  - unfold permute_nat. rewrite shp_make. unfold gather. rewrite Hs. reflexivity.
  - intros i j k Hi Hj Hk. assert (HP : is_perm [1; 0; 2] (rank t)) by (rewrite Hr; exact (swap_perm 0 1 3 ltac:(lia) ltac:(lia))).
    rewrite get_permute'; [reflexivity|exact HP|]. rewrite Hs. repeat constructor; assumption.
Qed.
Lemma sp_dense_mm_ok m t n p : shp t = [n; p] -> s_tag m = ttag t -> s_cols m = n ->
  sp_dense_mm m t = Ok (tmake (ttag t) [s_rows m; p] (fun idx => match idx with [i; j] => mat_vec (mget m) n (fun k => get t [k; j]) i | _ => kzero end)).
Proof. intros Hs Ht Hc. unfold sp_dense_mm. rewrite Hs, Ht, tag_eqb_refl, Hc, Nat.eqb_refl. reflexivity. Qed.
Lemma sp_dense_mm_inv m t r : sp_dense_mm m t = Ok r -> exists n p, shp t = [n; p] /\ s_cols m = n.
Proof.
  unfold sp_dense_mm. destruct (shp t) as [|n [|p [|? ?]]]; try discriminate. destruct (tag_eqb _ _); [|discriminate]. cbn [andb].
  destruct (Nat.eqb_spec (s_cols m) n); [|discriminate]. eauto.
Qed.

Lemma get_mkT2 (g : tag) (d : list K) a b c i j k : j < b -> k < c -> i < a -> get (mkT g [a; b * c] d) [i; j * c + k] = get (mkT g [a; b; c] d) [i; j; k].
Proof. intros Hj Hk Hi. unfold get. cbn [shp dat ravel]. f_equal. rewrite !prodl_cons, prodl_nil. cbn [ravel]. lia. Qed.

(** batch_mm multiplies along axis 1 of a [b, n, k] tensor *)
Lemma batch_mm_ok m t b n k : shp t = [b; n; k] -> wf t -> s_tag m = ttag t -> s_cols m = n -> 0 < n -> 0 < b -> 0 < s_rows m ->
  batch_mm m t = Ok (mat_axis (mget m) (s_rows m) 1 t).
Proof.
  intros Hs Hw Ht Hc Hn Hb Hr. unfold batch_mm. rewrite Hs, Hc, Nat.eqb_refl. cbn [negb]. destruct (transpose3 t b n k Hs) as [H1 H2].
  unfold reshape_last at 1. replace (prodl [n]) with n by (rewrite prodl_cons, prodl_nil; lia). destruct (Nat.eqb_spec n 0); [lia|]. rewrite H1.
  assert (Hp : prodl [n; b; k] / n = b * k). { rewrite !prodl_cons, prodl_nil. replace (n * (b * (k * 1))) with (b * k * n) by lia. apply Nat.div_mul. lia. }
  rewrite Hp, reshape_ok by (rewrite H1, !prodl_cons, !prodl_nil; cbn [app]; rewrite !prodl_cons, !prodl_nil; lia). cbn [rbind app].
  set (V := mkT (ttag (transpose t 0 1)) [n; b * k] (dat (transpose t 0 1))).
  assert (HV : forall i j q, i < n -> j < b -> q < k -> get V [i; j * k + q] = get t [j; i; q]).
  { intros i j q Hi Hj Hq. rewrite <- H2 by assumption. unfold V. rewrite get_mkT2 by assumption. rewrite <- H1, mkT_eta. reflexivity. }
  rewrite (sp_dense_mm_ok m V n (b * k)) by (auto; reflexivity). cbn [rbind].
  unfold reshape_last. rewrite shp_make.
  replace (prodl [s_rows m; b]) with (s_rows m * b) by (rewrite !prodl_cons, prodl_nil; lia). destruct (Nat.eqb_spec (s_rows m * b) 0); [nia|].
  assert (Hp2 : prodl [s_rows m; b * k] / (s_rows m * b) = k). { rewrite !prodl_cons, prodl_nil. replace (s_rows m * (b * k * 1)) with (k * (s_rows m * b)) by lia. apply Nat.div_mul. lia. }
  rewrite Hp2, reshape_ok by (rewrite shp_make; cbn [app]; rewrite !prodl_cons, !prodl_nil; lia). cbn [rbind app].
  set (W := mkT _ [s_rows m; b; k] _).
  assert (HW : forall i j q, i < s_rows m -> j < b -> q < k -> get W [i; j; q] = mat_vec (mget m) n (fun c => get t [j; c; q]) i).
  { intros i j q Hi Hj Hq. unfold W. rewrite <- get_mkT2 by assumption.
    match goal with |- get (mkT ?g ?s (dat ?T)) _ = _ => change (mkT g s (dat T)) with (mkT (ttag T) (shp T) (dat T)) end. rewrite mkT_eta, get_make by (repeat constructor; nia).
    unfold mat_vec. apply sumf_ext. intros c Hc'. rewrite HV by assumption. reflexivity. }
  f_equal. rewrite transpose_comm. destruct (transpose3 W (s_rows m) b k eq_refl) as [T1 T2].
  apply t_ext; [apply wf_transpose|apply wf_make| |rewrite T1; unfold mat_axis; rewrite shp_along, Hs; reflexivity|].
  - unfold W, V. reflexivity.
  - intros idx Hv. rewrite T1 in Hv. destruct idx as [|j [|i [|q [|? ?]]]]; try (apply valid_length in Hv; discriminate).
    assert (Hj : j < b) by exact (valid_nth _ _ 0 Hv ltac:(cbn; lia)). assert (Hi : i < s_rows m) by exact (valid_nth _ _ 1 Hv ltac:(cbn; lia)). assert (Hq : q < k) by exact (valid_nth _ _ 2 Hv ltac:(cbn; lia)).
    rewrite T2, HW by assumption. unfold mat_axis, along_axes. rewrite get_make; [|rewrite Hs; repeat constructor; assumption].
    cbn [gather map nth upds updn]. rewrite Hs. reflexivity.
Qed.

(** _batch_dim_mm multiplies along the given axis *)
Lemma batch_dim_mm_ok m t a : wf t -> a < rank t -> s_tag m = ttag t -> s_cols m = nth a (shp t) 0 -> 0 < s_cols m ->
  batch_dim_mm m t a = Ok (mat_axis (mget m) (s_rows m) a t).
Proof.
  intros Hw Ha Ht Hc Hn. unfold batch_dim_mm. rewrite <- Hc. destruct (Nat.eqb_spec (s_cols m) 0) as [|_]; [lia|].
  rewrite (transpose_comm t a (rank t - 1)). pose proof (shp_transpose_last t a Ha) as HT. rewrite <- Hc in HT.
  set (F := Fr (rank t) a (shp t)) in *. set (n := s_cols m) in *. set (T := transpose t (rank t - 1) a) in *.
  assert (Hpt : prodl (shp t) = prodl F * n).
  { assert (HwT : wf T) by apply wf_transpose. unfold wf in HwT. rewrite HT, prodl_app, prodl_cons, prodl_nil in HwT.
    assert (Hg : prodl (gather (pswap (rank t) a) 0 (shp t)) = prodl (shp t)).
    { unfold gather. assert (HP : Permutation.Permutation (map (fun d => nth d (shp t) 0) (pswap (rank t) a)) (map (fun d => nth d (shp t) 0) (seq 0 (rank t)))).
      { apply Permutation.Permutation_map. apply pswap_perm. exact Ha. }
      replace (map (fun d => nth d (shp t) 0) (seq 0 (rank t))) with (shp t) in HP by (symmetry; apply gather_seq_id).
      revert HP. generalize (map (fun d => nth d (shp t) 0) (pswap (rank t) a)) (shp t). clear. intros l l' HP. induction HP; rewrite ?prodl_cons; try lia. }
    rewrite gather_pswap in Hg by exact Ha. fold F in Hg. rewrite prodl_app, prodl_cons, prodl_nil, <- Hc in Hg. lia. }
  assert (Hp : prodl (shp t) / n = prodl F) by (rewrite Hpt; apply Nat.div_mul; lia).
  rewrite Hp, reshape_ok by (rewrite HT, prodl_app, !prodl_cons, !prodl_nil; lia). cbn [rbind].
  change (mkT (ttag T) [prodl F; n] (dat T)) with (mkT (ttag t) [prodl F; n] (dat T)).
  assert (Efl : mkT (ttag t) [prodl F; n] (dat T) = flat a t) by (unfold flat, F, T; rewrite Hc; reflexivity). rewrite Efl.
  assert (Hfs : shp (flat a t) = [prodl F; n]) by (unfold flat; cbn [shp]; rewrite <- Hc; reflexivity).
  destruct (transpose2 (flat a t) (prodl F) n Hfs) as [H1 H2].
  rewrite (sp_dense_mm_ok m _ n (prodl F) H1) by (auto; reflexivity). cbn [rbind].
  set (R := tmake _ [s_rows m; prodl F] _). destruct (transpose2 R (s_rows m) (prodl F)) as [R1 R2]; [reflexivity|].
  assert (HfF : firstn (rank t - 1) (shp T) = F) by (rewrite HT; apply firstn_app_exact; unfold F; apply Fr_length; exact Ha).
  rewrite HfF, reshape_ok by (rewrite R1, prodl_app, !prodl_cons, !prodl_nil; lia). cbn [rbind]. f_equal.
  set (U := mkT _ (F ++ [s_rows m]) _).
  destruct (transpose_back U (shp t) a (s_rows m)) as [B1 B2]; [exact Ha|reflexivity|]. fold (rank t) in B1, B2.
  apply t_ext; [apply wf_transpose|apply wf_make|reflexivity|rewrite B1; unfold mat_axis; rewrite shp_along; reflexivity|].
  intros idx Hv. rewrite B1 in Hv. rewrite B2 by exact Hv.
  assert (Hli : List.length idx = rank t) by (apply valid_length in Hv; rewrite updn_length in Hv; exact Hv).
  assert (Hia : nth a idx 0 < s_rows m) by (pose proof (valid_nth _ _ a Hv) as H; rewrite updn_length, nth_updn_eq in H by exact Ha; apply H; exact Ha).
  assert (Hvj : forall j, j < n -> valid (updn a j idx) (shp t)).
  { intros j Hj. rewrite <- (updn_same a (shp t) 0), <- (updn_updn a (nth a (shp t) 0) (s_rows m) (shp t)). apply valid_updn; [exact Hv|]. rewrite <- Hc. exact Hj. }
  assert (HvF : valid (Fr (rank t) a idx) F).
  { unfold F. rewrite <- (Fr_updn (rank t) a idx 0 Ha Hli). apply valid_Fr; [exact Ha|reflexivity|]. apply Hvj. exact Hn. }
  assert (Hlt : ravel F (Fr (rank t) a idx) < prodl F) by (apply ravel_lt; exact HvF).
  unfold U. rewrite <- (get_fold _ F [s_rows m] _ (Fr (rank t) a idx) [nth a idx 0]) by exact HvF.
  match goal with |- get (mkT ?g ?s (dat ?T)) _ = _ => replace (mkT g s (dat T)) with T by (rewrite <- (mkT_eta T) at 1; rewrite R1; reflexivity) end.
  rewrite R2 by assumption. unfold R. rewrite get_make by (repeat constructor; assumption).
  unfold mat_axis, along_axes. rewrite get_make by exact Hv. cbn [gather map nth upds].
  unfold mat_vec. rewrite <- Hc. fold n. apply sumf_ext. intros j Hj. f_equal. rewrite H2 by assumption.
  rewrite <- (get_flat a t (updn a j idx) Ha (Hvj j Hj)). rewrite Fr_updn by auto. rewrite nth_updn_eq by lia. reflexivity.
Qed.
End SMM.
