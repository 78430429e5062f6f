(** The perfect-reconstruction kernel of a two-channel filter bank, in N dimensions. *)
From Coq Require Import List Arith ZArith Lia Bool.
From Coq Require Import ZifyNat ZifyBool.
From Verif Require Import Base Sums Tensor TensorFacts Spec CoreFacts.
Import ListNotations.
Ltac Zify.zify_post_hook ::= Z.div_mod_to_equations.

Section PRK.
Context {K : CRing}.
Add Ring Kring : (cr_th K).

(** filter of channel bit b: 0 = low-pass, otherwise high-pass *)
Definition bsel (lo hi : list K) (b : nat) : list K := match b with O => lo | _ => hi end.
Definition bsels (lo hi : list K) (bs : list nat) : list (list K) := map (bsel lo hi) bs.

(** sum over i+j=t *)
Lemma sum_diag L (F : nat -> nat -> K) (E : nat -> K) :
  (forall i j, L <= i \/ L <= j -> F i j = kzero) ->
  sumf L (fun j => sumf L (fun i => kmul (F i j) (E (i + j))))
  = sumf (2 * L) (fun t => kmul (sumf (S t) (fun i => F i (t - i))) (E t)).
Proof.
  intros HF.
  transitivity (sumf L (fun j => sumf L (fun i => sumf (2 * L) (fun t => if Nat.eqb t (i + j) then kmul (F i j) (E t) else kzero)))).
  { apply sumf_ext. intros j Hj. apply sumf_ext. intros i Hi.
    rewrite (sumf_single (2 * L) (i + j)); [rewrite Nat.eqb_refl; reflexivity|lia|].
    intros t Ht Hne. apply Nat.eqb_neq in Hne. rewrite Hne. reflexivity. }
  transitivity (sumf (2 * L) (fun t => sumf L (fun i => sumf L (fun j => if Nat.eqb t (i + j) then kmul (F i j) (E t) else kzero)))).
  { rewrite sumf_swap.
    transitivity (sumf L (fun i => sumf (2 * L) (fun t => sumf L (fun j => if Nat.eqb t (i + j) then kmul (F i j) (E t) else kzero)))).
    - apply sumf_ext. intros i Hi. apply sumf_swap.
    - apply sumf_swap. }
  apply sumf_ext. intros t Ht. rewrite <- sumf_mul_r.
  transitivity (sumf L (fun i => if Nat.leb i t then kmul (F i (t - i)) (E t) else kzero)).
  { apply sumf_ext. intros i Hi. destruct (Nat.leb_spec i t) as [Hle|Hgt].
    - destruct (Nat.lt_ge_cases (t - i) L) as [Hl|Hg].
      + rewrite (sumf_single L (t - i)); [|lia|].
        * replace (i + (t - i)) with t by lia. rewrite Nat.eqb_refl. reflexivity.
        * intros j Hj Hne. destruct (Nat.eqb_spec t (i + j)); [lia|reflexivity].
      + rewrite HF by lia. rewrite sumf_zero; [ring|].
        intros j Hj. destruct (Nat.eqb_spec t (i + j)); [lia|reflexivity].
    - apply sumf_zero. intros j Hj. destruct (Nat.eqb_spec t (i + j)); [lia|reflexivity]. }
  destruct (Nat.le_gt_cases L (S t)) as [HL|HL].
  - rewrite (sumf_extend L (S t)); [|lia|].
    + apply sumf_ext. intros i Hi. destruct (Nat.leb_spec i t); [reflexivity|lia].
    + intros i Hi. rewrite HF by lia. ring.
  - rewrite (sumf_extend (S t) L); [|lia|].
    + apply sumf_ext. intros i Hi. destruct (Nat.leb_spec i t); [reflexivity|lia].
    + intros i Hi. destruct (Nat.leb_spec i t); [lia|reflexivity].
Qed.

(** the polyphase part of f*g: only j = t-i of the parity of p *)
Definition par (p : nat) (x : K) (j : nat) : K := if Bool.eqb (Nat.even j) (Nat.even p) then x else kzero.
Definition halfc (f g : list K) (p t : nat) : K :=
  sumf (S t) (fun i => par p (kmul (nth i f kzero) (nth (t - i) g kzero)) (t - i)).

Lemma halfc_double f g p t :
  kadd (halfc f g p t) (halfc f g p t)
  = kadd (convc f g t) (sgn (t + p) (aliasc f g t)).
Proof.
  unfold halfc, convc, aliasc.
  assert (Hs : forall n (h : nat -> K) q, sgn q (sumf n h) = sumf n (fun i => sgn q (h i))).
  { intros n h q. unfold sgn. destruct (Nat.even q); [reflexivity|].
    induction n as [|n IH]; cbn; [ring|]. rewrite <- IH. ring. }
  rewrite Hs, <- !sumf_add. apply sumf_ext. intros i Hi.
  unfold par, sgn. rewrite Nat.even_add.
  replace (Nat.even (t - i)) with (Bool.eqb (Nat.even t) (Nat.even i)).
  2:{ symmetry. rewrite Nat.even_sub by lia. reflexivity. }
  destruct (Nat.even t), (Nat.even p), (Nat.even i); cbn; ring.
Qed.

Lemma halfc_pr dlo dhi rlo rhi L p t : cancel2 K -> pr_bank dlo dhi rlo rhi L ->
  kadd (halfc dlo rlo p t) (halfc dhi rhi p t) = if Nat.eqb t (L - 1) then kone else kzero.
Proof.
  intros Hc H. apply Hc.
  transitivity (kadd (kadd (halfc dlo rlo p t) (halfc dlo rlo p t)) (kadd (halfc dhi rhi p t) (halfc dhi rhi p t))); [ring|].
  rewrite !halfc_double.
  transitivity (kadd (kadd (convc dlo rlo t) (convc dhi rhi t)) (sgn (t + p) (kadd (aliasc dlo rlo t) (aliasc dhi rhi t)))).
  { unfold sgn. destruct (Nat.even (t + p)); ring. }
  rewrite (pr_distortion _ _ _ _ _ H), (pr_alias _ _ _ _ _ H).
  unfold sgn. destruct (Nat.even (t + p)), (Nat.eqb t (L - 1)); ring.
Qed.

(** synthesis of one channel picks the matching taps *)
Lemma synth_taps (f g : list K) L n o (E : Z -> K) :
  List.length f = L -> List.length g = L -> 2 <= L -> Nat.even L = true -> o < even_up n ->
  sumf (dwt_len L n) (fun k => sumf L (fun j => sumf L (fun i =>
     if Nat.eqb (2 * k + j) (o + (L - 2))
     then kmul (kmul (nth i f kzero) (nth j g kzero)) (E (2 * Z.of_nat k + 1 - Z.of_nat i)%Z) else kzero)))
  = sumf (2 * L) (fun t => kmul (halfc f g o t) (E (Z.of_nat o + Z.of_nat L - 1 - Z.of_nat t)%Z)).
Proof.
  intros Hf Hg HL He Ho. apply Nat.even_spec in He as [h Hh].
  rewrite sumf_swap. unfold halfc.
  rewrite <- (sum_diag L (fun i j => par o (kmul (nth i f kzero) (nth j g kzero)) j)
               (fun t => E (Z.of_nat o + Z.of_nat L - 1 - Z.of_nat t)%Z)).
  2:{ intros i j [Hi|Hj]; unfold par; [rewrite (nth_overflow f) by lia|rewrite (nth_overflow g) by lia];
      destruct (Bool.eqb _ _); ring. }
  apply sumf_ext. intros j Hj.
  unfold par. destruct (Bool.eqb (Nat.even j) (Nat.even o)) eqn:Epar.
  - apply Bool.eqb_prop in Epar.
    assert (Hpar : exists k, 2 * k + j = o + (L - 2)).
    { destruct (Nat.even j) eqn:Ej; symmetry in Epar.
      - apply Nat.even_spec in Ej as [a Ha]. apply Nat.even_spec in Epar as [b Hb]. exists (b + h - 1 - a). lia.
      - assert (Oj : Nat.odd j = true) by (unfold Nat.odd; rewrite Ej; reflexivity).
        assert (Oo : Nat.odd o = true) by (unfold Nat.odd; rewrite Epar; reflexivity).
        apply Nat.odd_spec in Oj as [a Ha]. apply Nat.odd_spec in Oo as [b Hb]. exists (b + h - 1 - a). lia. }
    destruct Hpar as [k Hk].
    rewrite (sumf_single (dwt_len L n) k).
    + rewrite Hk, Nat.eqb_refl. apply sumf_ext. intros i Hi. do 2 f_equal. lia.
    + unfold even_up, dwt_len in *. lia.
    + intros k' Hk' Hne. apply sumf_zero. intros i Hi. destruct (Nat.eqb_spec (2 * k' + j) (o + (L - 2))); [lia|reflexivity].
  - transitivity (kzero : K).
    + apply sumf_zero. intros k Hk. apply sumf_zero. intros i Hi.
      destruct (Nat.eqb_spec (2 * k + j) (o + (L - 2))) as [Heq|]; [|reflexivity].
      exfalso. apply Bool.eqb_false_iff in Epar. apply Epar.
      assert (Hev : Nat.even (2 * k + j) = Nat.even (o + (L - 2))) by (rewrite Heq; reflexivity).
      replace (L - 2) with (2 * (h - 1)) in Hev by lia.
      rewrite Nat.even_add, Nat.even_add in Hev. rewrite !Nat.even_mul in Hev. cbn in Hev.
      destruct (Nat.even j), (Nat.even o); cbn in Hev; congruence.
    + symmetry. apply sumf_zero. intros i Hi. ring.
Qed.

Lemma pr_kernel1 dlo dhi rlo rhi L n o (E : Z -> K) : cancel2 K -> pr_bank dlo dhi rlo rhi L -> o < even_up n ->
  sumf 2 (fun b => sumf (dwt_len L n) (fun k => sumf L (fun j => sumf L (fun i =>
     if Nat.eqb (2 * k + j) (o + (L - 2))
     then kmul (kmul (nth i (bsel dlo dhi b) kzero) (nth j (bsel rlo rhi b) kzero)) (E (2 * Z.of_nat k + 1 - Z.of_nat i)%Z) else kzero))))
  = E (Z.of_nat o).
Proof.
  intros Hc H Ho. pose proof (pr_len _ _ _ _ _ H) as (H1 & H2 & H3 & H4).
  pose proof (pr_two _ _ _ _ _ H) as HL. pose proof (pr_even _ _ _ _ _ H) as He.
  cbn [sumf bsel]. rewrite !synth_taps by assumption.
  transitivity (sumf (2 * L) (fun t => kmul (kadd (halfc dlo rlo o t) (halfc dhi rhi o t)) (E (Z.of_nat o + Z.of_nat L - 1 - Z.of_nat t)%Z))).
  { rewrite <- (sumf_zero 1 (fun _ => kzero)) by reflexivity. cbn [sumf].
    transitivity (kadd (sumf (2 * L) (fun t => kmul (halfc dlo rlo o t) (E (Z.of_nat o + Z.of_nat L - 1 - Z.of_nat t)%Z)))
       (sumf (2 * L) (fun t => kmul (halfc dhi rhi o t) (E (Z.of_nat o + Z.of_nat L - 1 - Z.of_nat t)%Z)))); [ring|].
    rewrite <- sumf_add. apply sumf_ext. intros t Ht. ring. }
  rewrite (sumf_single (2 * L) (L - 1)); [|lia|].
  - rewrite (halfc_pr _ _ _ _ L) by auto. rewrite Nat.eqb_refl.
    replace (Z.of_nat o + Z.of_nat L - 1 - Z.of_nat (L - 1))%Z with (Z.of_nat o) by lia. ring.
  - intros t Ht Hne. rewrite (halfc_pr _ _ _ _ L) by auto. apply Nat.eqb_neq in Hne. rewrite Hne. ring.
Qed.

(** * N dimensions *)
Definition anaE (fs : list (list K)) (L : nat) (E : list Z -> K) (ks : list nat) : K :=
  sumI (repeat L (List.length ks)) (fun js =>
    kmul (taps fs js) (E (map2 (fun k j => (2 * Z.of_nat k + 1 - Z.of_nat j)%Z) ks js))).

Lemma sumI_if s (c : bool) (f : list nat -> K) :
  sumI s (fun i => if c then f i else kzero) = if c then sumI s f else kzero.
Proof. destruct c; [reflexivity|]. apply sumI_zero. reflexivity. Qed.
Lemma sumf_if n (c : bool) (f : nat -> K) :
  sumf n (fun i => if c then f i else kzero) = if c then sumf n f else kzero.
Proof. destruct c; [reflexivity|]. apply sumf_zero. reflexivity. Qed.

Lemma pr_kernel dlo dhi rlo rhi L (E : list Z -> K) s os : cancel2 K -> pr_bank dlo dhi rlo rhi L ->
  valid os (map even_up s) ->
  sumI (repeat 2 (List.length s)) (fun bs => sumI (map (dwt_len L) s) (fun ks => sumI (repeat L (List.length s)) (fun js =>
     if eqidx (map2 (fun k j => 2 * k + j) ks js) (map (fun o => o + (L - 2)) os)
     then kmul (anaE (bsels dlo dhi bs) L E ks) (taps (bsels rlo rhi bs) js) else kzero)))
  = E (map Z.of_nat os).
Proof.
  intros Hc H. revert E os. induction s as [|n s IH]; intros E os Hv.
  - inversion Hv; subst. cbn. unfold anaE. cbn. ring.
  - cbn [map] in Hv. inversion Hv as [|o e os' ss Ho Hv' E1 E2]; subst os e ss. clear Hv.
    cbn [List.length repeat map sumI].
    rewrite <- (pr_kernel1 dlo dhi rlo rhi L n o (fun z => E (z :: map Z.of_nat os')) Hc H Ho).
    apply sumf_ext. intros b Hb.
    (* bring k outside *)
    rewrite (sumI_sumf_swap (repeat 2 (List.length s))). apply sumf_ext. intros k Hk.
    transitivity (sumf L (fun j => sumI (repeat 2 (List.length s)) (fun bs => sumI (map (dwt_len L) s) (fun ks =>
       sumI (repeat L (List.length s)) (fun js =>
        if eqidx (map2 (fun k j => 2 * k + j) (k :: ks) (j :: js)) (map (fun o => o + (L - 2)) (o :: os'))
        then kmul (anaE (bsels dlo dhi (b :: bs)) L E (k :: ks)) (taps (bsels rlo rhi (b :: bs)) (j :: js)) else kzero))))).
    { rewrite <- sumI_sumf_swap. apply sumI_ext. intros bs Hbs. rewrite <- sumI_sumf_swap. apply sumI_ext. intros ks Hks. reflexivity. }
    apply sumf_ext. intros j Hj.
    rewrite sumf_if.
    transitivity (if Nat.eqb (2 * k + j) (o + (L - 2)) then
      sumf L (fun i => kmul (kmul (nth i (bsel dlo dhi b) kzero) (nth j (bsel rlo rhi b) kzero))
        (sumI (repeat 2 (List.length s)) (fun bs => sumI (map (dwt_len L) s) (fun ks => sumI (repeat L (List.length s)) (fun js =>
          if eqidx (map2 (fun k j => 2 * k + j) ks js) (map (fun o => o + (L - 2)) os')
          then kmul (anaE (bsels dlo dhi bs) L (fun zs => E ((2 * Z.of_nat k + 1 - Z.of_nat i)%Z :: zs)) ks) (taps (bsels rlo rhi bs) js) else kzero))))) else kzero).
    2:{ destruct (Nat.eqb _ _); [|reflexivity]. apply sumf_ext. intros i Hi. rewrite IH by exact Hv'. reflexivity. }
    destruct (Nat.eqb (2 * k + j) (o + (L - 2))) eqn:Ee.
    + transitivity (sumf L (fun i => sumI (repeat 2 (List.length s)) (fun bs => sumI (map (dwt_len L) s) (fun ks => sumI (repeat L (List.length s)) (fun js =>
          if eqidx (map2 (fun k j => 2 * k + j) ks js) (map (fun o => o + (L - 2)) os')
          then kmul (kmul (nth i (bsel dlo dhi b) kzero) (nth j (bsel rlo rhi b) kzero)) (kmul (anaE (bsels dlo dhi bs) L (fun zs => E ((2 * Z.of_nat k + 1 - Z.of_nat i)%Z :: zs)) ks) (taps (bsels rlo rhi bs) js)) else kzero))))).
      2:{ apply sumf_ext. intros i Hi. rewrite <- sumI_mul_l. apply sumI_ext. intros bs Hbs.
          rewrite <- sumI_mul_l. apply sumI_ext. intros ks Hks. rewrite <- sumI_mul_l. apply sumI_ext. intros js Hjs.
          destruct (eqidx _ _); ring. }
      rewrite <- sumI_sumf_swap. apply sumI_ext. intros bs Hbs.
      rewrite <- sumI_sumf_swap. apply sumI_ext. intros ks Hks.
      rewrite <- sumI_sumf_swap. apply sumI_ext. intros js Hjs.
      unfold eqidx. cbn [map2 map list_eqb]. rewrite Ee. cbn [andb].
      rewrite sumf_if. destruct (list_eqb _ _ _); [|reflexivity].
      unfold anaE. cbn [List.length repeat sumI bsels map taps].
      rewrite <- sumf_mul_r. apply sumf_ext. intros i Hi.
      transitivity (kmul (kmul (nth i (bsel dlo dhi b) kzero) (sumI (repeat L (List.length ks)) (fun js0 =>
         kmul (taps (bsels dlo dhi bs) js0) (E ((2 * Z.of_nat k + 1 - Z.of_nat i)%Z :: map2 (fun k0 j0 => (2 * Z.of_nat k0 + 1 - Z.of_nat j0)%Z) ks js0)))))
         (kmul (nth j (bsel rlo rhi b) kzero) (taps (bsels rlo rhi bs) js))); [|ring].
      f_equal. rewrite <- sumI_mul_l. apply sumI_ext. intros is His. cbn [map2]. fold (bsels dlo dhi bs). ring.
    + apply sumI_zero. intros bs Hbs. apply sumI_zero. intros ks Hks. apply sumI_zero. intros js Hjs.
      unfold eqidx. cbn [map2 map list_eqb]. rewrite Ee. reflexivity.
Qed.

End PRK.
