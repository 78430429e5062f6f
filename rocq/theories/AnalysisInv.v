(** Converse of the analysis lemma: if pad + convolution return, every axis was admissible. *)
From Coq Require Import List Arith ZArith Lia Bool String.
From Coq Require Import ZifyNat ZifyBool.
From Verif Require Import Base Sums Tensor TensorFacts Util Perm Plumb Spec Conv1 PadFacts CoreFacts Analysis.
Import ListNotations.
Ltac Zify.zify_post_hook ::= Z.div_mod_to_equations.

Section Inv.
Context {K : CRing}.
Implicit Types t u x : tensor K.

Lemma psl_zero {A} fuel (l : list A) : psl (S fuel) l 0 0 = Ok l.
Proof. cbn [psl]. change (Nat.ltb (List.length l) 0) with false. cbn. rewrite ?app_nil_r. reflexivity. Qed.

Lemma sym_axis_inv t d pl pr r : wf t -> d < rank t ->
  pad_symmetric_1d (S (S (pl + pr))) (transpose t 0 d) pl pr = Ok r ->
  (0 < nth d (shp t) 0 \/ pl = 0 /\ pr = 0) /\ wf (transpose r d 0) /\
  shp (transpose r d 0) = updn d (pl + nth d (shp t) 0 + pr) (shp t).
Proof.
  intros Hw Hd Hr. set (n := nth d (shp t) 0) in *.
  destruct (Nat.eq_dec n 0) as [Hn|Hn].
  - assert (Hr0 : 0 < rank t) by lia.
    assert (Hrt : rank (transpose t 0 d) = rank t).
    { unfold rank at 1. cbn [transpose permute_nat shp tmake]. rewrite gather_length, map_length, seq_length. reflexivity. }
    assert (Hhd : hd 0 (shp (transpose t 0 d)) = n).
    { cbn [transpose permute_nat shp tmake]. unfold gather. rewrite map_map.
      destruct (rank t) as [|k] eqn:Ek; [lia|]. cbn [seq map hd]. unfold swapn. reflexivity. }
    rewrite <- (sel0_id (transpose t 0 d)) in Hr; [|apply wf_make|lia]. rewrite Hhd, Hn in Hr. cbn [seq] in Hr.
    rewrite pad_sym_sel in Hr.
    destruct (Nat.eq_dec pl 0) as [->|Hpl]; [destruct (Nat.eq_dec pr 0) as [->|Hpr]|].
    + rewrite psl_zero in Hr. injection Hr as <-.
      split; [right; auto|]. rewrite transpose_remap; auto; [|cbn; lia].
      split; [apply wf_make|]. cbn. rewrite Hn. reflexivity.
    + rewrite psl_empty in Hr by lia. discriminate.
    + rewrite psl_empty in Hr by lia. discriminate.
  - destruct (sym_axis_ok t d pl pr Hw Hd ltac:(lia)) as (r' & Hr' & Ht). rewrite Hr' in Hr. injection Hr as <-.
    rewrite Ht. split; [left; lia|]. split; [apply wf_make|reflexivity].
Qed.

Definition sym_pad_ok (n : nat) (p : nat * nat) : Prop := 0 < n \/ fst p = 0 /\ snd p = 0.

Lemma sym_loop_inv pads : forall s t lead dn pos dims r, wf t -> shp t = lead ++ s ++ dn ->
  List.length s = List.length pads ->
  (pads <> [] -> dims - pos = List.length lead + List.length s - 1) -> (pads <> [] -> pos + List.length pads <= S dims) ->
  pad_symmetric_loop t dims pos (rev pads) = Ok r ->
  Forall2 sym_pad_ok s pads /\ shp r = lead ++ pad_shape s pads ++ dn.
Proof.
  induction pads as [|[pl pr] pads IH] using rev_ind; intros s t lead dn pos dims r Hw Hs Hl Hd Hd2 Hr.
  - destruct s; [|cbn in Hl; lia]. cbn in Hr. injection Hr as <-. split; [constructor|exact Hs].
  - rewrite app_length in Hl. cbn in Hl.
    destruct (exists_last (l:=s)) as (s' & n & ->); [intros ->; cbn in Hl; lia|].
    rewrite app_length in *. cbn [List.length] in *.
    rewrite rev_app_distr in Hr. cbn [rev app pad_symmetric_loop] in Hr.
    assert (Hne : pads ++ [(pl, pr)] <> []) by (destruct pads; discriminate).
    specialize (Hd Hne). specialize (Hd2 Hne). set (d := dims - pos) in *.
    assert (Ed : d = List.length lead + List.length s') by lia.
    assert (Hnth : nth d (shp t) 0 = n).
    { rewrite Hs, Ed. rewrite app_nth2 by lia. rewrite <- app_assoc. rewrite app_nth2 by lia.
      replace (List.length lead + List.length s' - List.length lead - List.length s') with 0 by lia. reflexivity. }
    assert (Hrk : d < rank t) by (unfold rank; rewrite Hs, !app_length; cbn; lia).
    destruct (pad_symmetric_1d (S (S (pl + pr))) (transpose t 0 d) pl pr) as [r1|] eqn:E1; [|discriminate].
    cbn [rbind] in Hr. destruct (sym_axis_inv t d pl pr r1 Hw Hrk E1) as (Ho & Hw1 & Hs1).
    rewrite Hnth in Ho, Hs1.
    assert (Hs1' : shp (transpose r1 d 0) = lead ++ s' ++ (pl + n + pr) :: dn).
    { rewrite Hs1, Hs, Ed. rewrite updn_app2 by lia.
      rewrite <- app_assoc. rewrite updn_app2 by lia.
      replace (List.length lead + List.length s' - List.length lead - List.length s') with 0 by lia. reflexivity. }
    destruct (IH s' _ lead ((pl + n + pr) :: dn) (S pos) dims r Hw1 Hs1') as (Hf & Hsr); auto; try lia.
    split.
    + apply Forall2_app; [exact Hf|]. constructor; [exact Ho|constructor].
    + rewrite Hsr. f_equal.
      assert (Hm : pad_shape (s' ++ [n]) (pads ++ [(pl, pr)]) = pad_shape s' pads ++ [pl + n + pr]).
      { unfold pad_shape. clear - Hl. revert pads Hl. induction s' as [|x s' IHs]; intros [|p pads] Hl; cbn in *; try lia; [reflexivity|].
        rewrite IHs by lia. reflexivity. }
      rewrite Hm, <- app_assoc. reflexivity.
Qed.

Lemma F2_impl {A B} (P Q : A -> B -> Prop) l l' : (forall a b, P a b -> Q a b) -> Forall2 P l l' -> Forall2 Q l l'.
Proof. intros H HF. induction HF; constructor; auto. Qed.

Lemma forallb_map2_F2 {A B} (f : A -> B -> bool) l l' : List.length l = List.length l' ->
  forallb (fun b => b) (map2 f l l') = true -> Forall2 (fun a b => f a b = true) l l'.
Proof.
  revert l'; induction l as [|a l IH]; intros [|b l'] Hl H; cbn in *; try lia; constructor.
  - apply andb_true_iff in H. apply H.
  - apply IH; [lia|]. apply andb_true_iff in H. apply H.
Qed.

Lemma pad_dispatch_inv m t lead s pads r : wf t -> shp t = lead ++ s -> List.length s = List.length pads ->
  1 <= List.length pads ->
  pad_dispatch t (rev pads) (emode m) = Ok r ->
  shp r = lead ++ pad_shape s pads /\
  (m = Msymmetric -> Forall2 sym_pad_ok s pads) /\
  (m <> Msymmetric -> Forall2 (fun n p => pad_ok (pmode m) n p = true) s pads).
Proof.
  intros Hw Hs Hl HD Hr.
  assert (Hrk : rank t = List.length lead + List.length s) by (unfold rank; rewrite Hs, app_length; lia).
  assert (Hcase : m = Msymmetric \/ m <> Msymmetric) by (destruct m; auto; right; discriminate).
  destruct Hcase as [->|Hm].
  - cbn [pad_dispatch emode] in Hr. unfold group_for_symmetric in Hr. rewrite rev_involutive in Hr.
    unfold pad_symmetric in Hr. destruct (Nat.ltb_spec (rank t) (List.length pads)); [lia|].
    destruct (sym_loop_inv pads s t lead [] 0 (rank t - 1) r Hw) as (Hf & Hsr); auto; try lia.
    { rewrite app_nil_r. exact Hs. }
    rewrite app_nil_r in Hsr. split; [exact Hsr|]. split; [auto|congruence].
  - assert (E : pad_dispatch t (rev pads) (emode m) = fpad t pads (pmode m)).
    { destruct m; try congruence; cbn [pad_dispatch emode pmode]; rewrite rev_involutive; reflexivity. }
    rewrite E in Hr. unfold fpad in Hr.
    assert (Hk : rank t - List.length pads = List.length lead) by lia.
    rewrite Hk in Hr. rewrite Hs in Hr. rewrite firstn_app_exact, skipn_app_exact in Hr by reflexivity.
    destruct (Nat.ltb (rank t) (List.length pads)); [discriminate|].
    destruct (negb (match pmode m with PConstant => true | _ => _ end)); [discriminate|].
    destruct (forallb (fun b => b) (map2 (pad_ok (pmode m)) s pads)) eqn:Ef; [|discriminate]. cbn [negb] in Hr.
    injection Hr as <-. split; [reflexivity|]. split; [congruence|]. intros _. apply forallb_map2_F2; auto.
Qed.

Lemma conv_nd_inv str dil t u r b cin s co ks : shp t = b :: cin :: s -> shp u = co :: cin :: ks ->
  conv_nd (K := K) str dil t u = Ok r -> List.length s = List.length ks ->
  Forall2 (fun n k => dil * (k - 1) < n) s ks.
Proof.
  intros Ht Hu Hr Hl. unfold conv_nd in Hr. rewrite Ht, Hu in Hr.
  destruct (forallb _ _) eqn:E; [|rewrite andb_false_r in Hr; discriminate].
  apply forallb_map2_F2 in E; [|exact Hl]. eapply F2_impl; [|exact E]. cbn. intros n k H.
  apply andb_true_iff in H. destruct H as [_ H]. apply Nat.ltb_lt in H. exact H.
Qed.

Lemma analysis_inv m b s u filt C L p res :
  wf u -> shp u = b :: s -> 1 <= List.length s -> 2 <= L -> Nat.even L = true ->
  shp filt = C :: 1 :: repeat L (List.length s) ->
  pad_dispatch (unsqueeze u 1) (rev (map (fun n => get_pad n L) s)) (emode m) = Ok p ->
  conv_nd 2 1 p filt = Ok res -> Forall (admissible m L) s.
Proof.
  intros Hw Hs HD HL He Hf Hp Hc.
  assert (Hsu : shp (unsqueeze u 1) = [b; 1] ++ s) by (cbn; unfold insertn; rewrite Hs; reflexivity).
  destruct (pad_dispatch_inv m (unsqueeze u 1) [b; 1] s (map (fun n => get_pad n L) s) p) as (Hsp & H1 & H2); auto.
  { apply wf_unsqueeze. exact Hw. } { rewrite map_length. reflexivity. } { rewrite map_length. exact HD. }
  assert (Hpl : List.length (pad_shape s (map (fun n => get_pad n L) s)) = List.length s)
    by (unfold pad_shape; rewrite map2_length, map_length; lia).
  pose proof (conv_nd_inv 2 1 p filt res b 1 _ C _ Hsp Hf Hc) as Hcv. rewrite repeat_length in Hcv. specialize (Hcv Hpl).
  clear - HL He Hcv H1 H2. apply Nat.even_spec in He. destruct He as [h Hh].
  assert (Hm : m = Msymmetric \/ m <> Msymmetric) by (destruct m; auto; right; discriminate).
  destruct Hm as [->|Hm].
  - specialize (H1 eq_refl). clear H2. induction s as [|n s IH]; constructor.
    + cbn [map List.length repeat pad_shape map2] in *. inversion H1; subst. inversion Hcv; subst.
      unfold sym_pad_ok in *. rewrite get_pad_eq in * by exact HL. cbn [fst snd] in *. unfold admissible. lia.
    + cbn [map List.length repeat pad_shape map2] in *. inversion H1; subst. inversion Hcv; subst. apply IH; assumption.
  - specialize (H2 Hm). clear H1. induction s as [|n s IH]; constructor.
    + cbn [map List.length repeat pad_shape map2] in *. inversion H2; subst. inversion Hcv; subst.
      rewrite get_pad_eq in * by exact HL. cbn [fst snd] in *. unfold admissible.
      destruct m; cbn [pad_ok pmode fst snd] in *; try congruence.
      * lia.
      * apply Nat.ltb_lt. assumption.
      * repeat match goal with H : _ && _ = true |- _ => apply andb_true_iff in H; destruct H end.
        repeat match goal with H : Nat.leb _ _ = true |- _ => apply Nat.leb_le in H end. lia.
      * repeat match goal with H : _ && _ = true |- _ => apply andb_true_iff in H; destruct H end.
        repeat match goal with H : Nat.ltb _ _ = true |- _ => apply Nat.ltb_lt in H end. lia.
    + cbn [map List.length repeat pad_shape map2] in *. inversion H2; subst. inversion Hcv; subst. apply IH; assumption.
Qed.

End Inv.
