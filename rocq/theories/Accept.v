(** Which tensors/axes the preprocessing accepts. *)
From Coq Require Import List Arith ZArith Lia Bool String.
From Coq Require Import ZifyNat ZifyBool.
From Verif Require Import Base Sums Tensor TensorFacts Util Perm Plumb.
Import ListNotations.

Section Acc.
Context {K : CRing}.
Implicit Types t u x : tensor K.

Lemma rbind_ok {A B} (e : result A) (f : A -> result B) b : rbind e f = Ok b -> exists a, e = Ok a /\ f a = Ok b.
Proof. destruct e; cbn; [eauto|discriminate]. Qed.

Lemma filter_partition_length {A} (f : A -> bool) l :
  List.length (filter f l) + List.length (filter (fun a => negb (f a)) l) = List.length l.
Proof. induction l as [|a l IH]; [reflexivity|]. cbn. destruct (f a); cbn; lia. Qed.

Lemma transpose_order_inv axes r front back : get_transpose_order axes r = (front, back) ->
  List.length (front ++ back) = r -> axes_ok r axes.
Proof.
  unfold get_transpose_order. intros E Hl. injection E as <- <-.
  set (ax := map (fun a => if (a <? 0)%Z then (a + Z.of_nat r)%Z else a) axes) in *.
  set (all := map Z.of_nat (seq 0 r)) in *.
  assert (Hall : List.length all = r) by (unfold all; rewrite map_length, seq_length; reflexivity).
  assert (HND : NoDup all).
  { unfold all. apply FinFun.Injective_map_NoDup; [intros x y Hxy; lia|apply seq_NoDup]. }
  set (hit := filter (fun a => existsb (Z.eqb a) ax) all).
  assert (Hhit : List.length hit = List.length ax).
  { pose proof (filter_partition_length (fun a => existsb (Z.eqb a) ax) all) as Hp. fold hit in Hp.
    rewrite app_length in Hl. lia. }
  assert (Hincl : incl hit ax).
  { intros z Hz. apply filter_In in Hz as [_ Hz]. apply existsb_exists in Hz as (y & Hy & E). apply Z.eqb_eq in E. subst y. exact Hy. }
  assert (HNDh : NoDup hit) by (apply NoDup_filter; exact HND).
  assert (Hax : NoDup ax) by (apply (NoDup_incl_NoDup (l := hit)); auto; lia).
  assert (Hincl2 : incl ax hit) by (apply NoDup_length_incl; auto; lia).
  assert (Hrange : forall a, In a axes -> (- Z.of_nat r <= a < Z.of_nat r)%Z).
  { intros a Ha. assert (Hin : In (if (a <? 0)%Z then (a + Z.of_nat r)%Z else a) ax).
    { unfold ax. apply in_map_iff. exists a. auto. }
    apply Hincl2 in Hin. apply filter_In in Hin as [Hin _]. unfold all in Hin.
    apply in_map_iff in Hin as (i & E & Hi). apply in_seq in Hi. destruct (Z.ltb_spec a 0); lia. }
  split; [apply Forall_forall; exact Hrange|].
  assert (E : map (norm_axis r) axes = map Z.to_nat ax).
  { unfold ax. rewrite map_map. reflexivity. }
  rewrite E. 
  assert (Hpos : forall z, In z ax -> (0 <= z)%Z).
  { intros z Hz. unfold ax in Hz. apply in_map_iff in Hz as (a & <- & Ha). specialize (Hrange a Ha). destruct (Z.ltb_spec a 0); lia. }
  clear - Hax Hpos. induction Hax as [|z l Hz Hn IH]; cbn; constructor.
  - intros Hin. apply in_map_iff in Hin as (y & Ey & Hy). apply Hz.
    assert (y = z) as <- by (pose proof (Hpos y (or_intror Hy)); pose proof (Hpos z (or_introl eq_refl)); lia). exact Hy.
  - apply IH. intros y Hy. apply Hpos. right. exact Hy.
Qed.

Lemma swap_axes_inv axes t r : swap_axes axes t = Ok r -> axes_ok (rank t) axes.
Proof.
  unfold swap_axes. intros H. apply rbind_ok in H as (u & _ & H).
  destruct (get_transpose_order axes (rank t)) as [front back] eqn:E.
  unfold torch_permute in H. destruct (Nat.eqb_spec (List.length (front ++ back)) (rank t)) as [Hl|]; [|discriminate].
  apply (transpose_order_inv axes (rank t) front back E Hl).
Qed.

Lemma ensure_axes_inv h N ax : ensure_axes h N = Ok ax -> hint_axes h N = Some ax /\ List.length ax = N.
Proof.
  destruct h as [|a|l]; cbn [ensure_axes]; intros H.
  - unfold get_default_axes in H. destruct (Nat.ltb N 1) eqn:E; [discriminate|]. injection H as <-.
    rewrite map_length, seq_length. split; [|reflexivity]. unfold hint_axes. rewrite E. reflexivity.
  - destruct (Nat.eqb_spec N 1) as [->|]; [|discriminate]. injection H as <-. split; reflexivity.
  - destruct (Nat.eqb_spec (List.length l) N) as [<-|]; [|discriminate].
    apply rbind_ok in H as (u & _ & H). injection H as <-. unfold hint_axes. rewrite Nat.eqb_refl. auto.
Qed.

(** the inputs a forward transform accepts *)
Lemma preprocess_tensor_inv x N h ch r : preprocess_tensor x N h ch = Ok r ->
  is_dtype_supported (tdtype x) = true /\ 0 < N /\
  exists axes, hint_axes h N = Some axes /\ List.length axes = N /\ axes_ok (rank x) axes.
Proof.
  unfold preprocess_tensor, preprocess_coeffs. intros H. apply rbind_ok in H as (p & H & _).
  destruct (Nat.leb_spec N 0); [discriminate|]. cbn [pc_items check_if_tensor rbind] in H.
  destruct (is_dtype_supported (tdtype x)); [|discriminate]. cbn [negb] in H.
  split; [reflexivity|]. split; [lia|].
  apply rbind_ok in H as (ax & Hax & H). apply ensure_axes_inv in Hax as [Hh Hl].
  exists ax. split; [exact Hh|]. split; [exact Hl|].
  apply rbind_ok in H as (dax & Hdax & H).
  unfold get_default_axes in Hdax. destruct (Nat.ltb N 1) eqn:EN; [discriminate|]. injection Hdax as <-.
  destruct (list_eqb Z.eqb ax _) eqn:E.
  - apply list_eqb_Z_spec in E. cbn [rbind pc_items] in H.
    destruct (Nat.ltb_spec (List.length (shp x)) N); [discriminate|]. rewrite E. apply default_axes_ok. exact H1.
  - apply rbind_ok in H as (c1 & Hc1 & _). unfold coeff_tree_map in Hc1. cbn [pc_items] in Hc1.
    apply rbind_ok in Hc1 as (y & Hy & _). apply swap_axes_inv in Hy. exact Hy.
Qed.

End Acc.
