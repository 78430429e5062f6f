(** Concrete cases for C86. *)
From Coq Require Import List Arith ZArith Lia Bool Ascii String.
From Verif Require Import Base Sums Tensor TensorFacts Util Perm Plumb Accept Spec Spec2 Lin Examples Conv1 Conv2 Conv3 Sep Unified PropsLocal Props1 ExFlip Packets SpecPk Wave1 PacketFacts PacketConv PropsPk PropsIter PropsIterPk.
Import ListNotations.
Local Open Scope nat_scope.

(** a batch of 5 x 6 integer images, two levels, four-tap bank *)
Theorem ex_C86 : exists c, analyse (Twavedec2 AxNone) (exT [2; 5; 6]) exW4 (Some "zero"%string) (Some 2%Z) = Ok c /\
  pc_items c = [PT (correlate 4 [iter_lo (dec_lo exW4) 2; iter_lo (dec_lo exW4) 2] 2 [1; 2] (exT [2; 5; 6]));
                closed_level (Twavedec2 AxNone) (dec_lo exW4) (dec_hi exW4) 4 [1; 2] (exT [2; 5; 6]) 2;
                closed_level (Twavedec2 AxNone) (dec_lo exW4) (dec_hi exW4) 4 [1; 2] (exT [2; 5; 6]) 1].
Proof.
  assert (G : okc (analyse (Twavedec2 AxNone) (exT [2; 5; 6]) exW4 (Some "zero"%string) (Some 2%Z)) = true) by (vm_compute; reflexivity).
  destruct (okc_ok _ G) as (c & E & _). exists c. split; [exact E|].
  destruct (C86_iterated_filters (Twavedec2 AxNone) (exT [2; 5; 6]) exW4 4 (Some 2%Z) c eq_refl eq_refl eq_refl ltac:(lia) eq_refl ltac:(discriminate) ltac:(discriminate) E) as (axes & Ha & HR).
  cbn in Ha. injection Ha as <-. exact HR.
Qed.
(** the filters are the familiar ones: [1; 2] iterated twice, and followed by [3; 5]; every tap of an unequal filter counts *)
Theorem ex_C86_filter :
  map (iter_lo (K := ZK) [1; 2]%Z 2) [-1; 0; 1; 2; 3; 4]%Z = [0; 1; 2; 2; 4; 0]%Z /\
  map (iter_last (K := ZK) [1; 2]%Z [3; 5]%Z 2) [-1; 0; 1; 2; 3; 4]%Z = [0; 3; 6; 5; 10; 0]%Z /\
  exists t, closed_level (Twavedec 0%Z) (dec_lo exW4) (dec_hi exW4) 4 [0] (exT [7]) 2 = PT t /\ shp t = [4] /\ dat t <> dat (tmake (K := ZK) f32 [4] (fun _ => 0%Z)).
Proof. split; [vm_compute; reflexivity|]. split; [vm_compute; reflexivity|]. eexists. split; [reflexivity|]. split; [vm_compute; reflexivity|]. vm_compute. discriminate. Qed.
(** a packet node of two channels of 11 integers, four-tap bank, read after another read *)
Theorem ex_C86_packet : let B := packet1 exW4 "zero"%string (-1) in let x := exT [2; 11] in
  exists s1 m v, pk_transform B (pk_new B tt) x (Some 2%Z) = (s1, Ok tt) /\ p_max s1 = Some m /\
    snd (pk_get B (pk_run B s1 [ORead ["d"]%char]) ["a"; "d"]%char) = Ok v /\ shp v = [2; 5] /\
    v = correlate 4 [path_filter [dec_hi exW4; dec_lo exW4]] 2 [1] x.
Proof.
  intros B x. unfold B, x.
  assert (G : match pk_transform (packet1 exW4 "zero" (-1)) (pk_new (packet1 exW4 "zero" (-1)) tt) (exT [2; 11]) (Some 2%Z) with
    (s, Ok tt) => match p_max s with Some _ => match snd (pk_get (packet1 exW4 "zero" (-1)) (pk_run (packet1 exW4 "zero" (-1)) s [ORead ["d"]%char]) ["a"; "d"]%char) with Ok v => Nat.eqb (nth 0 (shp v) 0) 2 && Nat.eqb (nth 1 (shp v) 0) 5 && Nat.eqb (List.length (shp v)) 2 | _ => false end | None => false end | _ => false end = true) by (vm_compute; reflexivity).
  destruct (pk_transform (packet1 exW4 "zero" (-1)) (pk_new (packet1 exW4 "zero" (-1)) tt) (exT [2; 11]) (Some 2%Z)) as [s1 r] eqn:E.
  destruct r as [[]|]; [|discriminate]. destruct (p_max s1) as [m|] eqn:Em; [|discriminate].
  destruct (snd (pk_get (packet1 exW4 "zero" (-1)) (pk_run (packet1 exW4 "zero" (-1)) s1 [ORead ["d"]%char]) ["a"; "d"]%char)) as [v|] eqn:Ev; [|discriminate].
  exists s1, m, v. split; [reflexivity|]. split; [exact Em|]. split; [exact Ev|]. split.
  - apply andb_prop in G as [G G3]. apply andb_prop in G as [G1 G2]. apply Nat.eqb_eq in G1, G2, G3. destruct (shp v) as [|a [|b [|]]]; try discriminate. cbn in G1, G2. congruence.
  - assert (HB : PropsSwt.even_bank exW4 4) by (repeat split; lia).
    assert (HA : Wave1.axis_ok (rank (exT [2; 11])) (-1)%Z) by (split; vm_compute; congruence).
    assert (HR : Forall (read_op (K := ZK)) [ORead ["d"]%char]) by (constructor; [exact I|constructor]).
    exact (C86_packet_1d exW4 4 (-1)%Z (pk_new (packet1 exW4 "zero" (-1)) tt) (exT [2; 11]) (Some 2%Z) s1 m [ORead ["d"]%char] ["a"; "d"]%char v HB eq_refl HA E Em HR Ev).
Qed.
