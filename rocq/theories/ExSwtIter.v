(** Concrete cases for C87. *)
From Coq Require Import List Arith ZArith Lia Bool String QArith Qcanon.
From Verif Require Import Base Sums Tensor TensorFacts Util Perm Plumb Accept Spec Spec2 Lin Conv1 Wave1 Swt SpecSwt SwtRec Examples PropsSwt PropsIter PropsSwtIter.
Import ListNotations.
Local Open Scope nat_scope.

Lemma exsw_input : swt_input (exT [2; 12]) AxNone (-1)%Z.
Proof. repeat split; try reflexivity; vm_compute; try congruence; lia. Qed.
Lemma exsw_bank : even_bank exW4 4. Proof. repeat split; lia. Qed.
(** two channels of 12 integers, three levels with a four-tap bank: the windows of level 3 (22 taps) wrap around *)
Theorem ex_C87 : exists s, swt (exT [2; 12]) exW4 (Some 3%Z) AxNone = Ok s /\
  s = mkPC true (map PT (swt_closed (dec_lo exW4) (dec_hi exW4) 4 1 3 (exT [2; 12]))).
Proof.
  pose proof (C87_iterated_filters (exT [2; 12]) exW4 4 (Some 3%Z) AxNone (-1)%Z exsw_input exsw_bank (or_intror eq_refl)) as H. cbv zeta in H.
  eexists. split; [exact H|]. reflexivity.
Qed.
Theorem ex_C87_values : map (fun m => iter_last (K := ZK) (dec_lo exW4) (dec_hi exW4) 2 (Z.of_nat m)) (seq 0 (taps_at 4 2)) <> repeat 0%Z 10 /\
  dat (circ_iter 4 (iter_last (dec_lo exW4) (dec_hi exW4) 2) 2 1 (exT [2; 12])) <> dat (circ_iter 4 (iter_lo (dec_lo exW4) 2) 2 1 (exT [2; 12])).
Proof. split; vm_compute; discriminate. Qed.
(** iswt of arbitrary coefficients, shifted by five *)
Theorem ex_C87_shift : exists y : tensor QcK, iswt qhalf (map PT [exQ [2; 12]; tshift 1 1 (exQ [2; 12]); exQ [2; 12]]) qW4 AxNone = Ok y /\
  iswt qhalf (map PT (map (tshift 1 5) [exQ [2; 12]; tshift 1 1 (exQ [2; 12]); exQ [2; 12]])) qW4 AxNone = Ok (tshift 1 5 y).
Proof.
  assert (Hi : swt_input (exQ [2; 12]) AxNone (-1)%Z) by (repeat split; try reflexivity; vm_compute; try congruence; lia).
  assert (HF : Forall (fun t : tensor QcK => wf t /\ shp t = shp (exQ [2; 12]) /\ ttag t = ttag (exQ [2; 12])) [tshift 1 1 (exQ [2; 12]); exQ [2; 12]]).
  { repeat constructor. }
  pose proof (C24_iswt_formula qhalf (exQ [2; 12]) [tshift 1 1 (exQ [2; 12]); exQ [2; 12]] qW4 4 AxNone (-1)%Z Hi HF eq_refl eq_refl ltac:(lia) eq_refl (or_intror eq_refl)) as E. cbv zeta in E.
  eexists. split; [exact E|].
  exact (C87_iswt_shift qhalf (exQ [2; 12]) [tshift 1 1 (exQ [2; 12]); exQ [2; 12]] qW4 4 AxNone (-1)%Z 5 _ Hi HF eq_refl eq_refl ltac:(lia) eq_refl (or_intror eq_refl) E).
Qed.
(** level 1 of wavedec against swt on the same signal: five of the seven coefficients see no border *)
Theorem ex_C87_decimated : exists c s d t, wavedec (exT [2; 12]) exW4 (Some "zero"%string) (Some 1%Z) (-1) = Ok c /\ swt (exT [2; 12]) exW4 (Some 3%Z) AxNone = Ok s /\
  nth_error (pc_items c) 1 = Some (PT d) /\ nth_error (pc_items s) 3 = Some (PT t) /\ shp d = [2; 7] /\
  forall b k, b < 2 -> 1 <= k < 6 -> get d [b; k] = get t [b; Z.to_nat ((2 * Z.of_nat k + 1 - 2) mod 12)].
Proof.
  assert (G : match wavedec (exT [2; 12]) exW4 (Some "zero"%string) (Some 1%Z) (-1) with Ok c => match nth_error (pc_items c) 1 with Some (PT d) => if list_eq_dec Nat.eq_dec (shp d) [2; 7] then true else false | _ => false end | _ => false end = true) by (vm_compute; reflexivity).
  destruct (wavedec (exT [2; 12]) exW4 (Some "zero"%string) (Some 1%Z) (-1)) as [c|] eqn:E; [|discriminate].
  destruct ex_C87 as (s & Es & _).
  destruct (C87_decimated (exT [2; 12]) exW4 4 (Some 1%Z) (Some 3%Z) AxNone (-1)%Z c s exsw_input exsw_bank (or_intror eq_refl) E Es 1 ltac:(vm_compute; lia) ltac:(vm_compute; lia)) as (d & t & Hd & Ht & HR).
  exists c, s, d, t. split; [reflexivity|]. split; [exact Es|].
  change (nth_error (pc_items c) 1 = Some (PT d)) in Hd. change (nth_error (pc_items s) 3 = Some (PT t)) in Ht.
  split; [exact Hd|]. split; [exact Ht|]. rewrite Hd in G.
  assert (Sd : shp d = [2; 7]) by (destruct (list_eq_dec Nat.eq_dec (shp d) [2; 7]) as [e|]; [exact e|discriminate]). split; [exact Sd|].
  intros b k Hb Hk. specialize (HR [b; k] ltac:(rewrite Sd; constructor; [exact Hb|constructor; [lia|constructor]])).
  change (nth (norm_axis (rank (exT [2; 12])) (-1)) [b; k] 0) with k in HR. change (Z.of_nat (taps_at 4 1)) with 4%Z in HR. change (2 ^ Z.of_nat 1)%Z with 2%Z in HR.
  change (Z.of_nat (nth (norm_axis (rank (exT [2; 12])) (-1)) (shp (exT [2; 12])) 0)) with 12%Z in HR. rewrite HR by lia.
  change (norm_axis (rank (exT [2; 12])) (-1)) with 1. cbn [updn]. do 3 f_equal. change (Z.of_nat (4 / 2)) with 2%Z.
  replace (2 * (Z.of_nat k + 1) - 1 - (2 - 1) * 2)%Z with (2 * Z.of_nat k + 1 - 2)%Z by lia. reflexivity.
Qed.
