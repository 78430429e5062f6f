(** Property theorems for the stationary transform (swt / iswt). *)
From Coq Require Import List Arith ZArith Lia Bool String QArith Qcanon.
From Coq Require Import ZifyNat ZifyBool.
From Verif Require Import Base Sums Tensor TensorFacts Util Perm Plumb Accept Spec Conv1 PadFacts CoreFacts Analysis PRKernel Synthesis Filters Wave1 Wave1Inv Rec1 Lin Examples SpecSwt Swt SwtFacts SwtDec SwtRec Props1.
Import ListNotations.
Local Open Scope nat_scope.
Ltac Zify.zify_post_hook ::= Z.div_mod_to_equations.

(** the default level divides the length *)
Lemma twos_dvd fuel : forall n, n <= fuel -> 0 < n -> n mod 2 ^ twos fuel n = 0.
Proof.
  induction fuel as [|fuel IH]; intros n Hf Hn; [lia|]. cbn [twos].
  destruct (Nat.eqb_spec n 0); [lia|]. cbn [orb]. destruct (Nat.odd n) eqn:Eo; [apply Nat.mod_1_r|].
  assert (He : Nat.even n = true) by (rewrite <- Nat.negb_odd, Eo; reflexivity). apply Nat.even_spec in He as [m ->].
  rewrite Nat.mul_comm, Nat.div_mul by lia. rewrite Nat.pow_succ_r', (Nat.mul_comm m 2).
  pose proof (Nat.pow_nonzero 2 (twos fuel m)). rewrite Nat.mul_mod_distr_l by lia. rewrite IH by lia. reflexivity.
Qed.
Lemma pow_dvd n J I : I <= J -> n mod 2 ^ J = 0 -> n mod 2 ^ I = 0.
Proof.
  intros HI H. pose proof (Nat.pow_nonzero 2 J ltac:(lia)). pose proof (Nat.pow_nonzero 2 I ltac:(lia)).
  apply Nat.mod_divides in H as [k ->]; [|lia]. replace J with (I + (J - I)) by lia. rewrite Nat.pow_add_r.
  rewrite <- Nat.mul_assoc, Nat.mul_comm. apply Nat.mod_mul. lia.
Qed.

(** the number of levels computed *)
Definition levels_of (level : option Z) (n : nat) : nat :=
  match level with Some z => Z.to_nat z | None => swt_max_level n end.

Section PSw.
Context {K : CRing}.
Add Ring Kring : (cr_th K).
Implicit Types t u x y : tensor K.
Implicit Types w : wavelet K.

Lemma lev_swt level n : swt_lev level n (levels_of level n).
Proof. destruct level; reflexivity. Qed.

(** [swt] accepts (shape-wise): what preprocessing needs *)
Definition swt_input x (h : axishint) (axis : Z) : Prop :=
  wf x /\ is_dtype_supported (tdtype x) = true /\ hint_axes h 1 = Some [axis] /\ axis_ok (rank x) axis /\ 0 < nth (norm_axis (rank x) axis) (shp x) 0.
Definition even_bank w (L : nat) : Prop :=
  List.length (dec_lo w) = L /\ List.length (dec_hi w) = L /\ 2 <= L /\ Nat.even L = true.

(** ** C22: level+1 tensors with shape, dtype and device of the input, for every even filter length and
    every non-empty axis, divisible or not *)
Theorem C22_swt_shapes x w L level h axis : swt_input x h axis -> even_bank w L ->
  exists ys : list (tensor K), swt x w level h = Ok (mkPC true (map PT ys)) /\
    List.length ys = levels_of level (nth (norm_axis (rank x) axis) (shp x) 0) + 1 /\
    Forall (fun y => wf y /\ shp y = shp x /\ ttag y = ttag x) ys.
Proof.
  intros (Hw & Hd & Hh & Hax & Hn) (H1 & H2 & HL & He). set (a := norm_axis (rank x) axis) in *.
  exists (gspec (dec_lo w) (dec_hi w) a (levels_of level (nth a (shp x) 0)) x). split; [|split].
  - apply (swt_gen x w L _ level h axis); auto. apply lev_swt.
  - unfold gspec. cbn [List.length]. rewrite map_length, rev_length, seq_length. lia.
  - apply Forall_forall. intros y Hy. destruct (gspec_facts (dec_lo w) (dec_hi w) a (levels_of level (nth a (shp x) 0)) x Hw (norm_axis_lt _ _ Hax) y Hy) as (A & B & C & D). auto.
Qed.

(** ** C23: the undecimated circular transform *)
Theorem C23_swt_formula x w L level h axis : swt_input x h axis -> even_bank w L ->
  let a := norm_axis (rank x) axis in let n := nth a (shp x) 0 in let J := levels_of level n in
  (L = 2 \/ n mod 2 ^ (J - 1) = 0) ->
  swt x w level h = Ok (mkPC true (map PT (swt_spec (dec_lo w) (dec_hi w) a J x))).
Proof.
  intros (Hw & Hd & Hh & Hax & Hn) (H1 & H2 & HL & He) a n J Hdiv.
  rewrite (swt_gen x w L J level h axis) by (auto; apply lev_swt). fold a. rewrite (gspec_circ _ _ L); auto.
  - apply norm_axis_lt. exact Hax.
  - destruct Hdiv as [->|Hdiv]; [apply circ_levels_two; exact Hn|apply circ_levels_dvd; assumption].
Qed.
Corollary C23_default_level x w L h axis : swt_input x h axis -> even_bank w L ->
  let a := norm_axis (rank x) axis in
  swt x w None h = Ok (mkPC true (map PT (swt_spec (dec_lo w) (dec_hi w) a (swt_max_level (nth a (shp x) 0)) x))).
Proof.
  intros Hi Hb a. apply (C23_swt_formula x w L None h axis Hi Hb). right. destruct Hi as (_ & _ & _ & _ & Hn).
  apply (pow_dvd _ (twos (nth a (shp x) 0) (nth a (shp x) 0))); [cbn [levels_of]; unfold swt_max_level; fold a; lia|]. apply twos_dvd; [reflexivity|exact Hn].
Qed.
(** the value of one coefficient: level j detail (j = 1 .. J) *)
Theorem C23_coefficient x w L level h axis c : swt_input x h axis -> even_bank w L ->
  let a := norm_axis (rank x) axis in let n := nth a (shp x) 0 in let J := levels_of level n in
  n mod 2 ^ (J - 1) = 0 -> swt x w level h = Ok c ->
  forall j idx, 1 <= j <= J -> valid idx (shp x) ->
  exists dj : tensor K, nth_error (pc_items c) (S (J - j)) = Some (PT dj) /\
    get dj idx = sumf L (fun i => kmul (nth i (dec_hi w) kzero)
       (get (swt_approx (dec_lo w) a (j - 1) x)
            (updn a (Z.to_nat ((Z.of_nat (nth a idx 0) + 2 ^ (Z.of_nat j - 1) * (Z.of_nat (L / 2) - Z.of_nat i)) mod Z.of_nat n)) idx))).
Proof.
  intros Hi Hb a n J Hdiv Hc j idx Hj Hv. rewrite (C23_swt_formula x w L level h axis Hi Hb) in Hc by (right; exact Hdiv).
  fold a in Hc. fold n in Hc. fold J in Hc. apply ok_inj in Hc. subst c. cbn [pc_items].
  destruct Hi as (Hw & Hd & Hh & Hax & Hn). destruct Hb as (H1 & H2 & HL & He).
  exists (swt_detail (dec_lo w) (dec_hi w) a j x). split.
  - unfold swt_spec. cbn [map nth_error]. rewrite !nth_error_map.
    replace (nth_error (rev (seq 1 J)) (J - j)) with (Some j); [reflexivity|]. symmetry.
    rewrite (nth_error_nth' _ 0) by (rewrite rev_length, seq_length; lia). f_equal. rewrite rev_nth by (rewrite seq_length; lia).
    rewrite seq_length, seq_nth by lia. lia.
  - unfold swt_detail, swt_level. pose proof (norm_axis_lt _ _ Hax) as Ha. fold a in Ha.
    destruct (swt_approx_facts (dec_lo w) a (j - 1) x Hw Ha) as (A & B & C & D).
    rewrite get_circ_axis by (rewrite ?B; auto; lia). rewrite B. unfold circ_conv. rewrite H2. reflexivity.
Qed.
(** ... commutes with circular shifts *)
Theorem C23_shift x w L level h axis s c : swt_input x h axis -> even_bank w L ->
  let a := norm_axis (rank x) axis in let n := nth a (shp x) 0 in
  (L = 2 \/ n mod 2 ^ (levels_of level n - 1) = 0) ->
  swt x w level h = Ok c -> swt (tshift a s x) w level h = Ok (pc_map (tshift a s) c).
Proof.
  intros Hi Hb a n Hdiv Hc. assert (Hi0 := Hi). destruct Hi0 as (Hw & Hd & Hh & Hax & Hn).
  pose proof (norm_axis_lt _ _ Hax) as Ha. fold a in Ha.
  destruct (tshift_facts a s x Ha) as (A & B & C & D).
  assert (Hi' : swt_input (tshift a s x) h axis).
  { unfold swt_input, tdtype. rewrite B, C, D. auto. }
  rewrite (C23_swt_formula x w L level h axis Hi Hb Hdiv) in Hc. apply ok_inj in Hc. subst c. fold a. fold n.
  rewrite (C23_swt_formula (tshift a s x) w L level h axis Hi' Hb); rewrite D, B; [|exact Hdiv]. fold a. fold n.
  rewrite swt_spec_shift by assumption. rewrite pc_map_list. reflexivity.
Qed.

(** ** C24: perfect reconstruction *)
Theorem C24_iswt_swt half x w L level h axis c : kadd half half = kone :> K ->
  pr_bank (dec_lo w) (dec_hi w) (rec_lo w) (rec_hi w) L -> swt_input x h axis ->
  let n := nth (norm_axis (rank x) axis) (shp x) 0 in
  (L = 2 \/ n mod 2 ^ (levels_of level n - 1) = 0) ->
  swt x w level h = Ok c -> iswt half (pc_items c) w h = Ok x.
Proof.
  intros Hh2 Hpr Hi n Hdiv Hc. pose proof (pr_len _ _ _ _ _ Hpr) as (H1 & H2 & H3 & H4). pose proof (pr_two _ _ _ _ _ Hpr) as HL. pose proof (pr_even _ _ _ _ _ Hpr) as He.
  rewrite (C23_swt_formula x w L level h axis Hi) in Hc; [|unfold even_bank; auto|exact Hdiv]. apply ok_inj in Hc. subst c. cbn [pc_items].
  destruct Hi as (Hw & Hd & Hh & Hax & Hn). pose proof (norm_axis_lt _ _ Hax) as Ha. set (a := norm_axis (rank x) axis) in *. fold n in Hn.
  set (J := levels_of level (nth a (shp x) 0)). fold n in J.
  destruct (swt_approx_facts (dec_lo w) a J x Hw Ha) as (A & B & C & D).
  unfold swt_spec. rewrite (iswt_ok half _ _ w L h axis); auto.
  - rewrite D. fold a. f_equal. apply (iswt_spec_pr half (dec_lo w) (dec_hi w) (rec_lo w) (rec_hi w) L); auto.
  - unfold tdtype. rewrite C. exact Hd.
  - rewrite D. exact Hax.
  - pose proof (swt_spec_facts (dec_lo w) (dec_hi w) a J x Hw Ha) as HF. unfold swt_spec in HF. apply Forall_inv_tail in HF.
    eapply Forall_impl; [|exact HF]. cbv beta. intros t (T1 & T2 & T3). repeat split; congruence.
  - rewrite D, B. exact Hn.
  - rewrite D, B. fold a. fold n. rewrite map_length, rev_length, seq_length.
    destruct Hdiv as [->|Hdiv]; [apply circ_levels_two; exact Hn|apply circ_levels_dvd; assumption].
Qed.
Corollary C24_default_level half x w L h axis c : kadd half half = kone :> K ->
  pr_bank (dec_lo w) (dec_hi w) (rec_lo w) (rec_hi w) L -> swt_input x h axis ->
  swt x w None h = Ok c -> iswt half (pc_items c) w h = Ok x.
Proof.
  intros Hh2 Hpr Hi Hc. apply (C24_iswt_swt half x w L None h axis); auto. right. destruct Hi as (_ & _ & _ & _ & Hn).
  apply (pow_dvd _ (twos (nth (norm_axis (rank x) axis) (shp x) 0) (nth (norm_axis (rank x) axis) (shp x) 0))); [cbn [levels_of]; unfold swt_max_level; lia|]. apply twos_dvd; [reflexivity|exact Hn].
Qed.
(** iswt computes the synthesis formula on any coefficients of equal shape *)
Theorem C24_iswt_formula half (lo : tensor K) his w L h axis : swt_input lo h axis ->
  Forall (fun t => wf t /\ shp t = shp lo /\ ttag t = ttag lo) his ->
  List.length (rec_lo w) = L -> List.length (rec_hi w) = L -> 2 <= L -> Nat.even L = true ->
  let a := norm_axis (rank lo) axis in
  (L = 2 \/ nth a (shp lo) 0 mod 2 ^ (List.length his - 1) = 0) ->
  iswt half (map PT (lo :: his)) w h = Ok (iswt_spec half (rec_lo w) (rec_hi w) a lo his).
Proof.
  intros (Hw & Hd & Hh & Hax & Hn) HF H1 H2 HL He a Hdiv. apply (iswt_ok half lo his w L h axis); auto.
  destruct Hdiv as [->|Hdiv]; [apply circ_levels_two; exact Hn|apply circ_levels_dvd; assumption].
Qed.

(** ** C25: wrapping more than once.  Correct exactly as long as no partial wrap on one side is followed by
    another round for the other side ([circ_ok]); in particular whenever the pad width that needs fewer
    rounds is a multiple of n. *)
Theorem C25_circular_pad_partial x b c n padl padr : wf x -> shp x = [b; c; n] -> 0 < n -> circ_ok n padl padr ->
  exists p : tensor K, circular_pad x padl padr = Ok p /\ shp p = [b; c; n + padl + padr] /\
    forall i j o, i < b -> j < c -> o < n + padl + padr -> get p [i; j; o] = get x [i; j; Z.to_nat ((Z.of_nat o - Z.of_nat padl) mod Z.of_nat n)].
Proof.
  intros Hw Hs Hn Hok. destruct (circ_list_ok n padl padr Hn) as (Hl & _ & Hc). specialize (Hc Hok).
  exists (sel2 x (circ_list n padl padr)). split; [apply (circular_pad_ok x b c); assumption|]. split.
  - unfold sel2. rewrite shp_make, Hs, Hl. reflexivity.
  - intros i j o Hi Hj Ho. unfold sel2. rewrite get_make by (rewrite Hs, Hl; cbn [nth]; valids). cbn [nth].
    rewrite Hc, pwin_nth by exact Ho. reflexivity.
Qed.
(** both pads at most n, or both pads multiples of some d dividing n and differing by at most d *)
Theorem C25_when_ok n padl padr : 0 < n ->
  (padl <= n /\ padr <= n) \/ padl = 0 \/ padr = 0 \/ (padl mod n = 0 /\ padr mod n = 0) \/
  (exists d h, 0 < d /\ 1 <= h /\ n mod d = 0 /\ ((padl = d * (h - 1) /\ padr = d * h) \/ (padl = d * h /\ padr = d * (h - 1)))) ->
  circ_ok n padl padr.
Proof.
  intros Hn [(A & B)|[->|[->|[(A & B)|(d & h & Hd & Hh & Hm & [(-> & ->)|(-> & ->)])]]]].
  - pose proof (rounds_le1 n padl Hn A). pose proof (rounds_le1 n padr Hn B).
    destruct (Nat.eq_dec padl 0) as [->|Hl]; [apply circ_ok_zero; exact Hn|]. destruct (Nat.eq_dec padr 0) as [->|Hr]; [apply circ_ok_sym, circ_ok_zero; exact Hn|].
    pose proof (rounds_pos n padl Hn ltac:(lia)). pose proof (rounds_pos n padr Hn ltac:(lia)). split; right; lia.
  - apply circ_ok_zero. exact Hn.
  - apply circ_ok_sym, circ_ok_zero. exact Hn.
  - split; left; assumption.
  - apply circ_ok_dilated; assumption.
  - apply circ_ok_sym, circ_ok_dilated; assumption.
Qed.

(** ** C52 for swt / iswt *)
Theorem C52_swt x w L level h axis c : swt_input x h axis -> even_bank w L -> swt x w level h = Ok c ->
  forall t, In t (pc_tensors c) -> ttag t = ttag x.
Proof.
  intros Hi Hb Hc t Ht. destruct (C22_swt_shapes x w L level h axis Hi Hb) as (ys & E & _ & HF). rewrite E in Hc. apply ok_inj in Hc. subst c.
  rewrite pc_tensors_list in Ht. rewrite Forall_forall in HF. apply HF. exact Ht.
Qed.
End PSw.

(** ** Concrete instances *)
Definition QcK : CRing := mkCRing Qc (Q2Qc 0) (Q2Qc 1) Qcplus Qcmult Qcminus Qcopp Qcrt.
Definition qc (z : Z) : QcK := Q2Qc (inject_Z z).
Definition qhalf : QcK := Q2Qc (1 # 2).
Lemma qhalf_ok : kadd qhalf qhalf = kone :> QcK.
Proof. apply Qc_is_canon. vm_compute. reflexivity. Qed.
Lemma QcK_cancel2 : cancel2 QcK.
Proof.
  intros a b H. change (Qcplus a a = Qcplus b b) in H.
  assert (E : forall c : Qc, c = Qcmult (Q2Qc (1 # 2)) (Qcplus c c)).
  { intros c. transitivity (Qcmult (Qcplus (Q2Qc (1#2)) (Q2Qc (1#2))) c); [|ring].
    replace (Qcplus (Q2Qc (1#2)) (Q2Qc (1#2))) with (Q2Qc 1) by (apply Qc_is_canon; vm_compute; reflexivity). ring. }
  rewrite (E a), (E b), H. reflexivity.
Qed.
Definition qW4 : wavelet QcK := mkWav (K := QcK) (map qc [0; 1; 1; 1]%Z) (map qc [0; 0; 1; 1]%Z) (map qc [0; 0; 1; -1]%Z) (map qc [0; 1; -1; 1]%Z).
Lemma qW4_pr : pr_bank (dec_lo qW4) (dec_hi qW4) (rec_lo qW4) (rec_hi qW4) 4.
Proof.
  apply pr_bank_intro; try reflexivity; try lia; intros k Hk;
  do 7 (destruct k as [|k]; [apply Qc_is_canon; vm_compute; reflexivity|]); cbn in Hk; lia.
Qed.
(** the time-reversed bank *)
Definition qV4 : wavelet QcK := mkWav (K := QcK) (map qc [1; 1; 1; 0]%Z) (map qc [1; 1; 0; 0]%Z) (map qc [-1; 1; 0; 0]%Z) (map qc [1; -1; 1; 0]%Z).
Lemma qV4_pr : pr_bank (dec_lo qV4) (dec_hi qV4) (rec_lo qV4) (rec_hi qV4) 4.
Proof.
  apply pr_bank_intro; try reflexivity; try lia; intros k Hk;
  do 7 (destruct k as [|k]; [apply Qc_is_canon; vm_compute; reflexivity|]); cbn in Hk; lia.
Qed.
Definition exQ (s : list nat) : tensor QcK := mkT (K := QcK) f32 s (map (fun i => qc (Z.of_nat ((i * i + 3 * i) mod 17))) (seq 0 (prodl s))).
Lemma exQ_wf s : wf (exQ s).
Proof. unfold wf, exQ. cbn [dat shp]. rewrite map_length, seq_length. reflexivity. Qed.

Example ex_C24_hyp : swt_input (exQ [2; 6]) (AxInt 1) 1 /\ pr_bank (dec_lo qW4) (dec_hi qW4) (rec_lo qW4) (rec_hi qW4) 4 /\ 6 mod 2 ^ (levels_of (Some 2%Z) 6 - 1) = 0.
Proof. split; [|split; [apply qW4_pr|reflexivity]]. split; [apply exQ_wf|]. repeat split; vm_compute; try lia; try congruence. Qed.
(** length 6 (not a multiple of 4), two levels, filters of length 4 *)
Example ex_C24 : match swt (exQ [2; 6]) qW4 (Some 2%Z) AxNone with
  | Ok c => match iswt qhalf (pc_items c) qW4 AxNone with
            | Ok y => shp y = [2; 6] /\ map this (dat y) = map this (dat (exQ [2; 6]))
            | Raise _ => False end
  | Raise _ => False end.
Proof. vm_compute. split; reflexivity. Qed.
(** three wraps: length 2, filters of length 4, level 2 (pads 2 and 4) *)
Example ex_C25 : circ_ok 2 2 4 /\ ~ circ_ok 3 2 4.
Proof.
  split; [split; [left; reflexivity|right; vm_compute; lia]|]. intros [[H|H] _]; vm_compute in H; [discriminate|lia].
Qed.
(** Finding: 3 samples padded by (2, 4): the wrong continuation 1 2 0 1 2 0 1 2 | 1 instead of ... | 0 *)
Theorem C25_circular_pad_refuted :
  match circular_pad (mkT (K := ZK) f32 [1; 1; 3] [0; 1; 2]%Z) 2 4 with
  | Ok p => dat p = [1; 2; 0; 1; 2; 0; 1; 2; 1]%Z /\ map (fun o => Z.of_nat (cyc 3 (Z.of_nat o - 2))) (seq 0 9) = [1; 2; 0; 1; 2; 0; 1; 2; 0]%Z
  | Raise _ => False end.
Proof. vm_compute. split; reflexivity. Qed.
(** ... which reaches the user: swt of 5 samples, three levels, filters of length 4, is not the circular transform
    (pywt would refuse the odd length), and iswt does not invert it *)
Theorem C23_odd_length_refuted :
  match swt (exQ [5]) qV4 (Some 3%Z) AxNone with
  | Ok (mkPC _ [PT a; PT d3; PT d2; PT d1]) => map (map this) [dat a; dat d3; dat d2; dat d1] <> map (fun t : tensor QcK => map this (dat t)) (swt_spec (dec_lo qV4) (dec_hi qV4) 0 3 (exQ [5]))
  | _ => False end.
Proof. vm_compute. discriminate. Qed.
Theorem C24_odd_length_refuted :
  match swt (exQ [5]) qV4 (Some 3%Z) AxNone with
  | Ok c => match iswt qhalf (pc_items c) qV4 AxNone with
            | Ok y => map this (dat y) <> map this (dat (exQ [5]))
            | Raise _ => False end
  | Raise _ => False end.
Proof. vm_compute. discriminate. Qed.
(** Finding: an empty axis makes the padding loop run forever *)
Example ex_swt_empty : swt (exT [0]) exW4 (Some 1%Z) AxNone = Raise RecursionError.
Proof. vm_compute. reflexivity. Qed.
