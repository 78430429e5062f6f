(** Concrete cases for C54-C56 (Daubechies-4 over the reals), and the history on which C56 fails without the
    restriction to one dtype (integers, a two-tap filter). *)
From Coq Require Import List Arith ZArith Lia Bool String Ascii Reals Lra.
From Verif Require Import Base Sums Tensor TensorFacts Util Accept Plumb Wave1 Tags Spec Conv2 Sep Sparse SparseFacts SpecMat SpecMatN Mat1 MatN MatOrth Examples PropsMat1 MatNFacts MatNLoop PropsMatN PropsMatN2 PropsMatNon Packets SpecPk PacketFacts PropsPk PacketsM SpecPkM PkInv PropsPkM PropsPkM2 RealLA ExReal ExMat1 ExMatN.
Import ListNotations.
Local Open Scope nat_scope.

(** an object that has already been used, also with failing calls, for other data *)
Definition ex_hist (s1 s2 : list nat) : list (op (K := RK)) :=
  [OTransform (exR s1) (Some 1%Z); ORead (ks "a"); ORead (ks "zz"); OReconstruct; ODelete (ks "d"); OAssign (ks "d") (exR s2); OReconstruct].
Lemma ex_hist_data s1 s2 : Forall (op_data (is_data f32)) (ex_hist s1 s2).
Proof. repeat constructor; apply exR_wf. Qed.
Definition words (l : list ascii) (n : nat) : list (list ascii) := Nat.iter n (fun ps => flat_map (fun p => map (fun c => c :: p) l) ps) [[]].
Lemma words_in l n p : word l p -> List.length p = n -> In p (words l n).
Proof.
  revert p. induction n as [|n IH]; intros p Hw Hl; [destruct p; [left; reflexivity|discriminate]|]. destruct p as [|c p]; [discriminate|]. cbn [words Nat.iter nat_rect].
  apply in_flat_map. exists p. split; [apply IH; [exact (Forall_inv_tail Hw)|injection Hl as ->; reflexivity]|]. apply in_map_iff. exists c. split; [reflexivity|exact (Forall_inv Hw)].
Qed.
Lemma words_word l n : Forall (fun p => word l p /\ List.length p = n) (words l n).
Proof.
  induction n as [|n IH]; [repeat constructor|]. apply Forall_forall. intros p Hp. cbn [words Nat.iter nat_rect] in Hp. apply in_flat_map in Hp as (q & Hq & Hp). apply in_map_iff in Hp as (c & <- & Hc).
  rewrite Forall_forall in IH. destruct (IH q Hq) as [H1 H2]. split; [constructor; assumption|]. cbn. rewrite H2. reflexivity.
Qed.
(** two levels along axis 1 of a 3 x 13 tensor *)
Theorem ex_C54_C55_1d method : orth_supported method = true ->
  let B := packet1b RLA db2 method 1 in let x := exR [3; 13] in
  exists s1 s2 s3 y v A, pk_transform B (pk_run B (pk_new B ([], [])) (ex_hist [4; 13] [7; 6])) x None = (s1, Ok tt) /\ p_max s1 = Some 2%Z /\
    snd (pk_get B (pk_run B s1 [ORead (ks "d")]) (ks "ad")) = Ok v /\ shp v = [3; 4] /\
    v = bw_hi A Mzero 1 (bw_lo A Mzero 1 x) /\ orthogonal 14 (A 14) /\ orthogonal 8 (A 8) /\
    pk_init B (pk_run B s1 [ORead (ks "da")]) (words ["a"; "d"]%char 2) = (s2, Ok tt) /\ pk_reconstruct B s2 = (s3, Ok tt) /\
    kget (p_data s3) [] = Some y /\ agrees_on x y /\ shp y = [3; 14].
Proof.
  intros Hm B x.
  assert (Hax : axis_ok (rank x) 1) by (split; cbn; lia).
  assert (Hf : float_tensor x) by (left; reflexivity).
  assert (Hw : wf x) by apply exR_wf.
  destruct (C54_default_level_1d RLA RK_domain RK_formally_real db2 4 method (RLA_ok method Hm) db2_ok db2_independent 1 f32 (ex_hist [4; 13] [7; 6]) x [ORead (ks "d")] (ks "ad")) as (s1 & A & Ht & HM & HA & HR); auto; [apply ex_hist_data|apply Nat.leb_le; reflexivity|].
  destruct (C55_round_trip_1d RLA RK_domain RK_formally_real db2 4 method (RLA_ok method Hm) db2_ok db2_independent 1 f32 (ex_hist [4; 13] [7; 6]) x [ORead (ks "da")] (words ["a"; "d"]%char 2)) as (s1' & s2 & s3 & y & Ht' & Hi & Hr & Hk & Hag & Hs); auto.
  - apply ex_hist_data.
  - apply Nat.leb_le; reflexivity.
  - apply Nat.leb_le; reflexivity.
  - repeat constructor.
  - intros p Hp Hl. apply words_in; assumption.
  - eapply Forall_impl; [|apply words_word]. intros p [H1 H2]. split; [exact H1|]. rewrite H2. apply le_n.
  - fold B in Ht, Ht'. rewrite Ht in Ht'. apply (f_equal fst) in Ht'. cbn [fst] in Ht'. subst s1'.
    exists s1, s2, s3, y. eexists. exists (fun k => mget (A k)). split; [exact Ht|]. split; [exact HM|]. split; [apply HR; [repeat constructor| |apply le_n]|].
    { apply Forall_forall; intros c [<-|[<-|[]]]; cbn; auto. }
    split; [reflexivity|]. split; [reflexivity|]. split; [apply HA; [lia|reflexivity]|]. split; [apply HA; [lia|reflexivity]|]. auto.
Qed.
(** both variants in two dimensions: 13 x 12 images along the axes 2 and 0 of a 12 x 2 x 13 tensor *)
Theorem ex_C54_C55_2d method sep : orth_supported method = true ->
  let B := packet2b RLA db2 method [2; 0]%Z sep in let x := exR [12; 2; 13] in
  exists s1 s2 s3 y v, pk_transform B (pk_run B (pk_new B ([], [])) (ex_hist [4; 1; 9] [7; 6])) x None = (s1, Ok tt) /\ p_max s1 = Some 2%Z /\
    snd (pk_get B (pk_run B s1 [ORead (ks "d")]) (ks "hd")) = Ok v /\ shp v = [3; 2; 4] /\
    pk_init B (pk_run B s1 [ORead (ks "vh")]) (words ["a"; "h"; "v"; "d"]%char 2) = (s2, Ok tt) /\ pk_reconstruct B s2 = (s3, Ok tt) /\
    kget (p_data s3) [] = Some y /\ agrees_on x y /\ shp y = [12; 2; 14].
Proof.
  intros Hm B x.
  assert (Hax : axes_ok (rank x) [2; 0]%Z). { split; [repeat constructor; cbn; lia|]. repeat constructor; cbn; intuition lia. }
  assert (Hf : float_tensor x) by (left; reflexivity).
  assert (Hw : wf x) by apply exR_wf.
  assert (Hb : batch_nonempty (map (norm_axis (rank x)) [2; 0]%Z) x). { intros d Hd Hi. cbn in Hd, Hi |- *. destruct d as [|[|[|d]]]; [| |exfalso; apply Hi; cbn; auto|]; cbn; lia. }
  assert (Hn : Forall (fun n => 1 <= n) (gather (map (norm_axis (rank x)) [2; 0]%Z) 0 (shp x))) by (repeat constructor; cbn; lia).
  destruct (default_2d RLA RK_domain RK_formally_real db2 4 method [2; 0]%Z sep f32 (RLA_ok method Hm) db2_ok db2_independent eq_refl (ex_hist [4; 1; 9] [7; 6]) x [ORead (ks "d")] (ks "hd")) as (s1 & J & EJ & Ht & HM & HR); auto; [apply ex_hist_data|].
  destruct (C55_round_trip_2d RLA RK_domain RK_formally_real db2 4 method [2; 0]%Z sep f32 (RLA_ok method Hm) db2_ok db2_independent eq_refl (ex_hist [4; 1; 9] [7; 6]) x [ORead (ks "vh")] (words ["a"; "h"; "v"; "d"]%char 2)) as (s1' & s2 & s3 & y & Ht' & Hi & Hr & Hk & Hag & Hs); auto.
  - apply ex_hist_data.
  - apply Nat.leb_le; reflexivity.
  - repeat constructor.
  - intros p Hp Hl. apply words_in; assumption.
  - eapply Forall_impl; [|apply words_word]. intros p [H1 H2]. split; [exact H1|]. rewrite H2. apply le_n.
  - fold B in Ht, Ht'. rewrite Ht in Ht'. apply (f_equal fst) in Ht'. cbn [fst] in Ht'. subst s1'. assert (E2 : J = 2) by (rewrite EJ; reflexivity). clear EJ. subst J.
    exists s1, s2, s3, y. eexists. split; [exact Ht|]. split; [exact HM|]. split; [apply HR; [repeat constructor| |apply le_n]|].
    { apply Forall_forall; intros c [<-|[<-|[]]]; cbn; auto 6. }
    split; [reflexivity|]. auto.
Qed.

(** C56 fails as soon as the dtype changes: reading the approximation raises, on a fresh object it does not *)
Definition ok_of {A} (r : result A) : result unit := match r with Ok _ => Ok tt | Raise e => Raise e end.
Theorem C56_dtype_refuted_1d : let B := packet1b noLA exW2 "qr" (-1) in
  let x := exT' [4] (float32, cpu) in let y := exT' [4] (float64, cpu) in
  let used := pk_run B (pk_new B ([], [])) [OTransform x None; ORead (ks "a")] in
  snd (pk_transform B used y None) = Ok tt /\
  ok_of (snd (pk_get B (fst (pk_transform B used y None)) (ks "a"))) = Raise RuntimeError /\
  ok_of (snd (pk_get B (fst (pk_transform B (pk_new B ([], [])) y None)) (ks "a"))) = Ok tt.
Proof. repeat split; vm_compute; reflexivity. Qed.
Theorem C56_dtype_refuted_2d sep : let B := packet2b noLA exH "qr" [-2; -1]%Z sep in
  let x := exT' [4; 4] (float32, cpu) in let y := exT' [4; 4] (float64, cpu) in
  let used := pk_run B (pk_new B ([], [])) [OTransform x None; ORead (ks "a")] in
  snd (pk_transform B used y None) = Ok tt /\
  ok_of (snd (pk_get B (fst (pk_transform B used y None)) (ks "a"))) = Raise RuntimeError /\
  ok_of (snd (pk_get B (fst (pk_transform B (pk_new B ([], [])) y None)) (ks "a"))) = Ok tt.
Proof. destruct sep; repeat split; vm_compute; reflexivity. Qed.
(** the signal is not longer than the filter: with padding modes such a node is readable, with boundary the three
    variants fail in three different ways *)
Theorem C54_short_signal_errors :
  (let B := packet1b noLA exW4 "qr" (-1) in ok_of (snd (pk_get B (fst (pk_transform B (pk_new B ([], [])) (exT [2]) (Some 1%Z))) (ks "a"))) = Raise ValueError) /\
  (let B := packet2b noLA exW4 "qr" [-2; -1]%Z true in ok_of (snd (pk_get B (fst (pk_transform B (pk_new B ([], [])) (exT [2; 2]) (Some 1%Z))) (ks "a"))) = Raise AssertionError) /\
  (let B := packet2b noLA exW4 "qr" [-2; -1]%Z false in ok_of (snd (pk_get B (fst (pk_transform B (pk_new B ([], [])) (exT [2; 2]) (Some 1%Z))) (ks "a"))) = Raise UnboundLocalError).
Proof. repeat split; vm_compute; reflexivity. Qed.
