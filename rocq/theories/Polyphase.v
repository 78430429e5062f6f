(** Polyphase matrices: a two-channel filter bank whose synthesis filters are the reversed analysis filters has
    perfect reconstruction iff its analysis filters are orthonormal to each other's even shifts.
    (2x2 matrices over the ring of power series: a left inverse is a right inverse.) *)
From Coq Require Import List Arith ZArith Lia Bool Setoid Morphisms Ring.
From Verif Require Import Base Sums Tensor TensorFacts Util Spec SpecMat CoreFacts PRKernel.
Import ListNotations.

Section PS.
Context {K : CRing}.
Add Ring Kring : (cr_th K).
Local Open Scope K_scope.

(** power series *)
Definition ps := nat -> K.
Definition peq (f g : ps) : Prop := forall n, f n = g n.
Definition pzero : ps := fun _ => 0.
Definition pone : ps := fun n => if Nat.eqb n 0 then 1 else 0.
Definition padd (f g : ps) : ps := fun n => f n + g n.
Definition psub (f g : ps) : ps := fun n => f n - g n.
Definition popp (f : ps) : ps := fun n => - f n.
Definition pmul (f g : ps) : ps := fun n => sumf (S n) (fun i => f i * g (n - i)%nat).

Lemma pmul_alt N (f g : ps) n : (n < N)%nat -> pmul f g n = sumf N (fun i => sumf N (fun j => if Nat.eqb (i + j) n then f i * g j else 0)).
Proof.
  intros Hn. unfold pmul. symmetry. rewrite (sumf_extend (S n) N) by
   (lia || (intros i Hi; apply sumf_zero; intros j Hj; destruct (Nat.eqb_spec (i + j) n); [lia|reflexivity])).
  apply sumf_ext. intros i Hi. rewrite (sumf_single N (n - i)).
  - replace (i + (n - i))%nat with n by lia. rewrite Nat.eqb_refl. reflexivity.
  - lia.
  - intros j Hj Hne. destruct (Nat.eqb_spec (i + j) n); [lia|reflexivity].
Qed.
Lemma pmul_comm f g : peq (pmul f g) (pmul g f).
Proof.
  intros n. rewrite !(pmul_alt (S n)) by lia. rewrite sumf_swap. apply sumf_ext. intros i _. apply sumf_ext. intros j _.
  rewrite (Nat.add_comm i j). destruct (Nat.eqb _ n); ring.
Qed.
Lemma pmul3 N (f g h : ps) n : (n < N)%nat -> pmul (pmul f g) h n =
  sumf N (fun i => sumf N (fun j => sumf N (fun k => if Nat.eqb (i + j + k) n then f i * g j * h k else 0))).
Proof.
  intros Hn. rewrite (pmul_alt N) by exact Hn.
  transitivity (sumf N (fun m => sumf N (fun k => sumf N (fun i => sumf N (fun j => if Nat.eqb (m + k) n then (if Nat.eqb (i + j) m then f i * g j * h k else 0) else 0))))).
  { apply sumf_ext. intros m Hm. apply sumf_ext. intros k Hk. destruct (Nat.eqb_spec (m + k) n).
    - rewrite (pmul_alt N) by exact Hm. rewrite <- sumf_mul_r. apply sumf_ext. intros i _. rewrite <- sumf_mul_r. apply sumf_ext. intros j _.
      destruct (Nat.eqb _ m); ring.
    - symmetry. apply sumf_zero. intros i _. apply sumf_zero. reflexivity. }
  transitivity (sumf N (fun i => sumf N (fun j => sumf N (fun k => sumf N (fun m => if Nat.eqb (m + k) n then (if Nat.eqb (i + j) m then f i * g j * h k else 0) else 0))))).
  { rewrite sumf_swap.
    transitivity (sumf N (fun k => sumf N (fun i => sumf N (fun j => sumf N (fun m => if Nat.eqb (m + k) n then (if Nat.eqb (i + j) m then f i * g j * h k else 0) else 0))))).
    { apply sumf_ext. intros k _. rewrite sumf_swap. apply sumf_ext. intros i _. apply sumf_swap. }
    rewrite sumf_swap. apply sumf_ext. intros i _. apply sumf_swap. }
  apply sumf_ext. intros i _. apply sumf_ext. intros j _. apply sumf_ext. intros k _.
  destruct (Nat.lt_ge_cases (i + j) N) as [H|H].
  - rewrite (sumf_single N (i + j)); [rewrite Nat.eqb_refl; reflexivity|exact H|].
    intros m _ Hne. destruct (Nat.eqb_spec (m + k) n), (Nat.eqb_spec (i + j) m); try reflexivity; lia.
  - rewrite sumf_zero.
    + destruct (Nat.eqb_spec (i + j + k) n); [lia|reflexivity].
    + intros m Hm. destruct (Nat.eqb_spec (m + k) n), (Nat.eqb_spec (i + j) m); try reflexivity; lia.
Qed.
Lemma pmul_assoc f g h : peq (pmul f (pmul g h)) (pmul (pmul f g) h).
Proof.
  intros n. rewrite (pmul_comm f (pmul g h) n). rewrite !(pmul3 (S n)) by lia.
  transitivity (sumf (S n) (fun j => sumf (S n) (fun i => sumf (S n) (fun k => if Nat.eqb (i + j + k) n then f i * g j * h k else 0)))).
  - apply sumf_ext. intros j _. rewrite sumf_swap. apply sumf_ext. intros i _. apply sumf_ext. intros k _.
    replace (j + k + i)%nat with (i + j + k)%nat by lia. destruct (Nat.eqb _ n); ring.
  - apply sumf_swap.
Qed.
Lemma ps_setoid : Equivalence peq.
Proof. split; [intros f n; reflexivity|intros f g H n; symmetry; apply H|intros f g h H1 H2 n; rewrite H1; apply H2]. Qed.
Lemma ps_ext : ring_eq_ext padd pmul popp peq.
Proof.
  split; intros f f' Hf; try (intros g g' Hg); intros n; unfold padd, pmul, popp.
  - rewrite Hf, Hg. reflexivity.
  - apply sumf_ext. intros i _. rewrite Hf, Hg. reflexivity.
  - rewrite Hf. reflexivity.
Qed.
Lemma ps_theory : ring_theory pzero pone padd pmul psub popp peq.
Proof.
  split; intros; try (intros n; unfold padd, pzero, psub, popp; ring).
  - intros n. unfold pmul, pone. rewrite (sumf_single (S n) 0); [cbn; rewrite Nat.sub_0_r; ring|lia|].
    intros i _ Hi. destruct (Nat.eqb_spec i 0); [lia|ring].
  - apply pmul_comm.
  - apply pmul_assoc.
  - intros n. unfold pmul, padd. rewrite <- sumf_add. apply sumf_ext. intros i _. ring.
Qed.
Add Ring PSring : ps_theory (setoid ps_setoid ps_ext).
#[local] Instance peq_equiv : Equivalence peq := ps_setoid.
#[local] Instance padd_proper : Proper (peq ==> peq ==> peq) padd. Proof. exact (Radd_ext ps_ext). Qed.
#[local] Instance pmul_proper : Proper (peq ==> peq ==> peq) pmul. Proof. exact (Rmul_ext ps_ext). Qed.
#[local] Instance popp_proper : Proper (peq ==> peq) popp. Proof. exact (Ropp_ext ps_ext). Qed.
#[local] Instance psub_proper : Proper (peq ==> peq ==> peq) psub.
Proof. intros f f' Hf g g' Hg n. unfold psub. rewrite Hf, Hg. reflexivity. Qed.

(** the monomial z^m is not a zero divisor *)
Definition mono (m : nat) : ps := fun n => if Nat.eqb n m then 1 else 0.
Lemma mono_mul m f n : pmul (mono m) f (m + n)%nat = f n.
Proof.
  unfold pmul, mono. rewrite (sumf_single (S (m + n)) m); [|lia|].
  - rewrite Nat.eqb_refl. replace (m + n - m)%nat with n by lia. ring.
  - intros i _ Hi. destruct (Nat.eqb_spec i m); [lia|ring].
Qed.
Lemma mono_cancel m f : peq (pmul (mono m) f) pzero -> peq f pzero.
Proof. intros H n. rewrite <- (mono_mul m f n). exact (H (m + n)%nat). Qed.

Notation "f [+] g" := (padd f g) (at level 50, left associativity).
Notation "f [-] g" := (psub f g) (at level 50, left associativity).
Notation "f [*] g" := (pmul f g) (at level 40, left associativity).
(** if E^T G = z I for 2x2 matrices E, G then E G^T = z I *)
Lemma inverse_sides m e00 e01 e10 e11 g00 g01 g10 g11 :
  peq (e00 [*] g00 [+] e10 [*] g10) (mono m) -> peq (e00 [*] g01 [+] e10 [*] g11) pzero ->
  peq (e01 [*] g00 [+] e11 [*] g10) pzero -> peq (e01 [*] g01 [+] e11 [*] g11) (mono m) ->
  peq (e00 [*] g00 [+] e01 [*] g01) (mono m) /\ peq (e00 [*] g10 [+] e01 [*] g11) pzero /\
  peq (e10 [*] g00 [+] e11 [*] g01) pzero /\ peq (e10 [*] g10 [+] e11 [*] g11) (mono m).
Proof.
  intros H00 H01 H10 H11. set (z := mono m) in *.
  assert (Hdet : peq ((e00 [*] e11 [-] e01 [*] e10) [*] (g00 [*] g11 [-] g01 [*] g10)) (z [*] z)).
  { transitivity ((e00 [*] g00 [+] e10 [*] g10) [*] (e01 [*] g01 [+] e11 [*] g11) [-] (e00 [*] g01 [+] e10 [*] g11) [*] (e01 [*] g00 [+] e11 [*] g10)); [ring|].
    rewrite H00, H01, H10, H11. ring. }
  assert (Fin : forall x, peq ((e00 [*] e11 [-] e01 [*] e10) [*] x) pzero -> peq x pzero).
  { intros x Hx. apply (mono_cancel m), (mono_cancel m). fold z.
    transitivity ((z [*] z) [*] x); [ring|]. rewrite <- Hdet.
    transitivity ((g00 [*] g11 [-] g01 [*] g10) [*] ((e00 [*] e11 [-] e01 [*] e10) [*] x)); [ring|]. rewrite Hx. ring. }
  assert (Sub : forall a b, peq (a [-] b) pzero -> peq a b).
  { intros a b H. transitivity (b [+] (a [-] b)); [ring|]. rewrite H. ring. }
  (* rows of (E G^T - z) E *)
  assert (R0 : peq ((e00 [*] g00 [+] e01 [*] g01 [-] z) [*] e00 [+] (e00 [*] g10 [+] e01 [*] g11) [*] e10) pzero).
  { transitivity (e00 [*] (e00 [*] g00 [+] e10 [*] g10) [+] e01 [*] (e00 [*] g01 [+] e10 [*] g11) [-] z [*] e00); [ring|]. rewrite H00, H01. ring. }
  assert (R1 : peq ((e00 [*] g00 [+] e01 [*] g01 [-] z) [*] e01 [+] (e00 [*] g10 [+] e01 [*] g11) [*] e11) pzero).
  { transitivity (e00 [*] (e01 [*] g00 [+] e11 [*] g10) [+] e01 [*] (e01 [*] g01 [+] e11 [*] g11) [-] z [*] e01); [ring|]. rewrite H10, H11. ring. }
  assert (R2 : peq ((e10 [*] g00 [+] e11 [*] g01) [*] e00 [+] (e10 [*] g10 [+] e11 [*] g11 [-] z) [*] e10) pzero).
  { transitivity (e10 [*] (e00 [*] g00 [+] e10 [*] g10) [+] e11 [*] (e00 [*] g01 [+] e10 [*] g11) [-] z [*] e10); [ring|]. rewrite H00, H01. ring. }
  assert (R3 : peq ((e10 [*] g00 [+] e11 [*] g01) [*] e01 [+] (e10 [*] g10 [+] e11 [*] g11 [-] z) [*] e11) pzero).
  { transitivity (e10 [*] (e01 [*] g00 [+] e11 [*] g10) [+] e11 [*] (e01 [*] g01 [+] e11 [*] g11) [-] z [*] e11); [ring|]. rewrite H10, H11. ring. }
  repeat split.
  - apply Sub, Fin.
    transitivity (e11 [*] ((e00 [*] g00 [+] e01 [*] g01 [-] z) [*] e00 [+] (e00 [*] g10 [+] e01 [*] g11) [*] e10)
                  [-] e10 [*] ((e00 [*] g00 [+] e01 [*] g01 [-] z) [*] e01 [+] (e00 [*] g10 [+] e01 [*] g11) [*] e11)); [ring|]. rewrite R0, R1. ring.
  - apply Fin.
    transitivity (e00 [*] ((e00 [*] g00 [+] e01 [*] g01 [-] z) [*] e01 [+] (e00 [*] g10 [+] e01 [*] g11) [*] e11)
                  [-] e01 [*] ((e00 [*] g00 [+] e01 [*] g01 [-] z) [*] e00 [+] (e00 [*] g10 [+] e01 [*] g11) [*] e10)); [ring|]. rewrite R0, R1. ring.
  - apply Fin.
    transitivity (e11 [*] ((e10 [*] g00 [+] e11 [*] g01) [*] e00 [+] (e10 [*] g10 [+] e11 [*] g11 [-] z) [*] e10)
                  [-] e10 [*] ((e10 [*] g00 [+] e11 [*] g01) [*] e01 [+] (e10 [*] g10 [+] e11 [*] g11 [-] z) [*] e11)); [ring|]. rewrite R2, R3. ring.
  - apply Sub, Fin.
    transitivity (e00 [*] ((e10 [*] g00 [+] e11 [*] g01) [*] e01 [+] (e10 [*] g10 [+] e11 [*] g11 [-] z) [*] e11)
                  [-] e01 [*] ((e10 [*] g00 [+] e11 [*] g01) [*] e00 [+] (e10 [*] g10 [+] e11 [*] g11 [-] z) [*] e10)); [ring|]. rewrite R2, R3. ring.
Qed.

(** ** polyphase components *)
Definition ph (f : list K) (p : nat) : ps := fun m => nth (2 * m + p) f 0.
Lemma sumf_pairs M (h : nat -> K) : sumf (2 * M) h = sumf M (fun m => h (2 * m)%nat + h (2 * m + 1)%nat).
Proof.
  induction M as [|M IH]; [reflexivity|]. replace (2 * S M)%nat with (S (S (2 * M))) by lia. cbn [sumf]. rewrite IH.
  replace (S (2 * M)) with (2 * M + 1)%nat by lia. ring.
Qed.
Lemma halfc_ph f g p q s : (p < 2)%nat -> (q < 2)%nat -> halfc f g q (2 * s + p + q) = pmul (ph f p) (ph g q) s.
Proof.
  intros Hp Hq. unfold halfc, pmul. set (t := (2 * s + p + q)%nat). rewrite sumf_rev.
  transitivity (sumf (2 * (s + 2)) (fun j => if Nat.leb j t then par q (nth (t - j) f 0 * nth j g 0) j else 0)).
  { rewrite (sumf_extend (S t) (2 * (s + 2))).
    - apply sumf_ext. intros j Hj. destruct (Nat.leb_spec j t); [|lia]. replace (S t - 1 - j)%nat with (t - j)%nat by lia. replace (t - (t - j))%nat with j by lia. reflexivity.
    - unfold t. lia.
    - intros j Hj. destruct (Nat.leb_spec j t); [lia|reflexivity]. }
  rewrite sumf_pairs. rewrite (sumf_extend (S s) (s + 2)); [|lia|].
  - rewrite sumf_rev. apply sumf_ext. intros m Hm. replace (S s - 1 - m)%nat with (s - m)%nat by lia. unfold ph, par.
    rewrite !Nat.even_add, !Nat.even_mul. cbn [Nat.even orb].
    destruct q as [|[|q]]; [| |lia]; cbn [Nat.even Bool.eqb].
    + destruct (Nat.leb_spec (2 * (s - m)) t); [|unfold t in *; lia]. destruct (Nat.leb _ t);
      replace (t - 2 * (s - m))%nat with (2 * m + p)%nat by (unfold t; lia); rewrite !Nat.add_0_r; ring.
    + destruct (Nat.leb_spec (2 * (s - m) + 1) t); [|unfold t in *; lia]. destruct (Nat.leb _ t);
      replace (t - (2 * (s - m) + 1))%nat with (2 * m + p)%nat by (unfold t; lia); ring.
  - intros m Hm. unfold par. rewrite !Nat.even_add, !Nat.even_mul. cbn [Nat.even orb].
    destruct q as [|[|q]]; [| |lia]; cbn [Nat.even Bool.eqb].
    + destruct (Nat.leb_spec (2 * m) t); [unfold t in *; lia|]. destruct (Nat.leb _ t); ring.
    + destruct (Nat.leb_spec (2 * m + 1) t); [unfold t in *; lia|]. destruct (Nat.leb _ t); ring.
Qed.
Lemma corr_ph f f' L s : List.length f = L -> List.length f' = L -> (L mod 2 = 0)%nat -> (0 < L)%nat ->
  padd (pmul (ph f 0) (ph (rev f') 1)) (pmul (ph f 1) (ph (rev f') 0)) s = corr f f' (2 * (Z.of_nat (L / 2) - 1 - Z.of_nat s)).
Proof.
  intros Hf Hf' He HL. pose proof (Nat.div_mod L 2 ltac:(lia)) as HM. set (M := (L / 2)%nat) in *. rewrite He in HM.
  assert (R : forall i, nth i (rev f') 0 = zget f' (Z.of_nat L - 1 - Z.of_nat i)).
  { intros i. destruct (Nat.lt_ge_cases i L) as [H|H].
    - rewrite rev_nth by lia. rewrite <- zget_nat. f_equal. lia.
    - rewrite nth_overflow by (rewrite rev_length; lia). rewrite zget_neg by lia. reflexivity. }
  unfold padd, pmul, ph. rewrite <- sumf_add.
  transitivity (sumf (2 * S s) (fun j => nth j f 0 * zget f' (Z.of_nat j + 2 * (Z.of_nat M - 1 - Z.of_nat s)))).
  { rewrite sumf_pairs. apply sumf_ext. intros i Hi. rewrite !R. rewrite Nat.add_0_r. f_equal; do 2 f_equal; lia. }
  unfold corr. rewrite Hf. destruct (Nat.le_gt_cases L (2 * S s)).
  - apply sumf_extend; [lia|]. intros j Hj. rewrite nth_overflow by lia. ring.
  - symmetry. apply sumf_extend; [lia|]. intros j Hj. rewrite zget_big by lia. ring.
Qed.
Lemma corr_swap (a b : list K) (d : Z) : List.length a = List.length b -> corr a b d = corr b a (- d).
Proof.
  revert a b d.
  assert (G : forall (a b : list K) d, List.length a = List.length b -> (0 <= d)%Z -> corr a b d = corr b a (- d)).
  { intros a b d Hl Hd. unfold corr. rewrite <- Hl. set (n := List.length a) in *.
    transitivity (sumf (n + Z.to_nat d) (fun j => nth j b 0 * zget a (Z.of_nat j - d))).
    - rewrite Nat.add_comm, sumf_app. rewrite (sumf_zero (Z.to_nat d)).
      2: { intros i Hi. rewrite zget_neg by lia. ring. }
      transitivity (sumf n (fun j => zget b (Z.of_nat j + d) * nth j a 0)); [apply sumf_ext; intros; ring|].
      transitivity (sumf n (fun i => nth (Z.to_nat d + i) b 0 * zget a (Z.of_nat (Z.to_nat d + i) - d))); [|ring].
      apply sumf_ext. intros i Hi. rewrite <- !zget_nat. f_equal; f_equal; lia.
    - apply sumf_extend; [lia|]. intros j Hj. rewrite nth_overflow by lia. ring. }
  intros a b d Hl. destruct (Z.le_ge_cases 0 d); [apply G; assumption|]. replace d with (- - d)%Z at 1 by lia. symmetry. apply G; [congruence|lia].
Qed.

Lemma convc_halves (f g : list K) t : convc f g t = halfc f g 0 t + halfc f g 1 t.
Proof.
  unfold convc, halfc. rewrite <- sumf_add. apply sumf_ext. intros i _. unfold par. cbn [Nat.even]. destruct (Nat.even (t - i)); cbn; ring.
Qed.
Lemma aliasc_halves (f g : list K) t : aliasc f g t = halfc f g t t - halfc f g (S t) t.
Proof.
  unfold aliasc, halfc. rewrite <- sumf_sub. apply sumf_ext. intros i Hi. unfold par, sgn. rewrite Nat.even_succ, <- Nat.negb_even.
  rewrite (Nat.even_sub t i) by lia. destruct (Nat.even t), (Nat.even i); cbn; ring.
Qed.
Lemma halfc_par (f g : list K) p q t : Nat.even p = Nat.even q -> halfc f g p t = halfc f g q t.
Proof. intros H. unfold halfc, par. rewrite H. reflexivity. Qed.

(** the four products of polyphase components are the parity parts of the two conditions *)
Lemma halves_pr (dlo dhi rlo rhi : list K) L : List.length dlo = L -> List.length dhi = L -> List.length rlo = L -> List.length rhi = L ->
  Nat.even L = true -> (2 <= L)%nat ->
  (forall p t, halfc dlo rlo p t + halfc dhi rhi p t = if Nat.eqb t (L - 1) then 1 else 0) ->
  pr_bank dlo dhi rlo rhi L.
Proof.
  intros H1 H2 H3 H4 He HL H. split; auto; intros k.
  - rewrite !convc_halves.
    transitivity ((halfc dlo rlo 0 k + halfc dhi rhi 0 k) + (halfc dlo rlo 1 k + halfc dhi rhi 1 k)); [ring|]. rewrite !H.
    destruct (Nat.eqb k (L - 1)); ring.
  - rewrite !aliasc_halves.
    transitivity ((halfc dlo rlo k k + halfc dhi rhi k k) - (halfc dlo rlo (S k) k + halfc dhi rhi (S k) k)); [ring|]. rewrite !H. ring.
Qed.

Theorem pr_iff_orthogonal (dlo dhi : list K) L : cancel2 K -> List.length dlo = L -> List.length dhi = L -> Nat.even L = true -> (2 <= L)%nat ->
  (pr_bank dlo dhi (rev dlo) (rev dhi) L <-> orthogonal_bank L dlo dhi (rev dlo) (rev dhi)).
Proof.
  intros Hc H1 H2 He HL. assert (Hm : (L mod 2 = 0)%nat) by (apply Nat.even_spec in He as [h Hh]; lia).
  pose proof (Nat.div_mod L 2 ltac:(lia)) as HM. set (M := (L / 2)%nat) in *. rewrite Hm in HM.
  assert (C : forall f f' s, List.length f = L -> List.length f' = L ->
    padd (pmul (ph f 0) (ph (rev f') 1)) (pmul (ph f 1) (ph (rev f') 0)) s = corr f f' (2 * (Z.of_nat M - 1 - Z.of_nat s))).
  { intros f f' s Hf Hf'. apply corr_ph; try assumption; lia. }
  split.
  - intros B.
    assert (G : forall p q, (p < 2)%nat -> (q < 2)%nat -> peq (padd (pmul (ph dlo p) (ph (rev dlo) q)) (pmul (ph dhi p) (ph (rev dhi) q)))
                  (if Nat.eqb (p + q) 1 then mono (M - 1) else pzero)).
    { intros p q Hp Hq s. unfold padd. rewrite <- !halfc_ph by assumption. rewrite (halfc_pr _ _ _ _ L) by assumption.
      destruct (Nat.eqb_spec (p + q) 1); unfold mono, pzero; destruct (Nat.eqb_spec (2 * s + p + q) (L - 1)); try lia; try reflexivity;
      destruct (Nat.eqb_spec s (M - 1)); try lia; reflexivity. }
    destruct (inverse_sides (M - 1) (ph dlo 0) (ph dlo 1) (ph dhi 0) (ph dhi 1) (ph (rev dlo) 1) (ph (rev dlo) 0) (ph (rev dhi) 1) (ph (rev dhi) 0)) as (A00 & A01 & A10 & A11).
    { apply (G 0%nat 1%nat); lia. } { apply (G 0%nat 0%nat); lia. } { apply (G 1%nat 1%nat); lia. } { apply (G 1%nat 0%nat); lia. }
    assert (Q : forall f f', List.length f = L -> List.length f' = L -> forall (P : K -> Z -> Prop), (forall s : nat, P (corr f f' (2 * (Z.of_nat M - 1 - Z.of_nat s))) (Z.of_nat M - 1 - Z.of_nat s)%Z) ->
      (forall k, (Z.of_nat M <= k)%Z -> P 0 k) -> forall k, P (corr f f' (2 * k)) k).
    { intros f f' Hf Hf' P Ps Pb k. destruct (Z.lt_ge_cases k (Z.of_nat M)) as [Hk|Hk].
      - specialize (Ps (Z.to_nat (Z.of_nat M - 1 - k))). replace (Z.of_nat M - 1 - Z.of_nat (Z.to_nat (Z.of_nat M - 1 - k)))%Z with k in Ps by lia. exact Ps.
      - replace (corr f f' (2 * k)) with (0 : K); [apply Pb; exact Hk|]. symmetry. unfold corr. apply sumf_zero. intros j Hj. rewrite zget_big by lia. ring. }
    split; auto.
    + apply (Q dlo dlo H1 H1 (fun v k => v = if Z.eqb k 0 then 1 else 0)).
      * intros s. rewrite <- C by assumption. rewrite (A00 s). unfold mono. destruct (Nat.eqb_spec s (M - 1)), (Z.eqb_spec (Z.of_nat M - 1 - Z.of_nat s) 0); try lia; reflexivity.
      * intros k Hk. destruct (Z.eqb_spec k 0); [lia|reflexivity].
    + apply (Q dhi dhi H2 H2 (fun v k => v = if Z.eqb k 0 then 1 else 0)).
      * intros s. rewrite <- C by assumption. rewrite (A11 s). unfold mono. destruct (Nat.eqb_spec s (M - 1)), (Z.eqb_spec (Z.of_nat M - 1 - Z.of_nat s) 0); try lia; reflexivity.
      * intros k Hk. destruct (Z.eqb_spec k 0); [lia|reflexivity].
    + apply (Q dlo dhi H1 H2 (fun v k => v = 0)).
      * intros s. rewrite <- C by assumption. apply (A01 s).
      * reflexivity.
  - intros B. destruct B as [_ _ _ _ _ _ Blo Bhi Bx].
    assert (Bx' : forall k, corr dhi dlo (2 * k) = 0).
    { intros k. rewrite corr_swap by congruence. replace (- (2 * k))%Z with (2 * - k)%Z by lia. apply Bx. }
    assert (E00 : peq (padd (pmul (ph dlo 0) (ph (rev dlo) 1)) (pmul (ph dlo 1) (ph (rev dlo) 0))) (mono (M - 1))).
    { intros s. rewrite C, Blo by assumption. unfold mono. destruct (Nat.eqb_spec s (M - 1)), (Z.eqb_spec (Z.of_nat M - 1 - Z.of_nat s) 0); try lia; reflexivity. }
    assert (E11 : peq (padd (pmul (ph dhi 0) (ph (rev dhi) 1)) (pmul (ph dhi 1) (ph (rev dhi) 0))) (mono (M - 1))).
    { intros s. rewrite C, Bhi by assumption. unfold mono. destruct (Nat.eqb_spec s (M - 1)), (Z.eqb_spec (Z.of_nat M - 1 - Z.of_nat s) 0); try lia; reflexivity. }
    assert (E01 : peq (padd (pmul (ph dlo 0) (ph (rev dhi) 1)) (pmul (ph dlo 1) (ph (rev dhi) 0))) pzero).
    { intros s. rewrite C, Bx by assumption. reflexivity. }
    assert (E10 : peq (padd (pmul (ph dhi 0) (ph (rev dlo) 1)) (pmul (ph dhi 1) (ph (rev dlo) 0))) pzero).
    { intros s. rewrite C, Bx' by assumption. reflexivity. }
    destruct (inverse_sides (M - 1) (ph dlo 0) (ph dhi 0) (ph dlo 1) (ph dhi 1) (ph (rev dlo) 1) (ph (rev dhi) 1) (ph (rev dlo) 0) (ph (rev dhi) 0)) as (A00 & A01 & A10 & A11); try assumption.
    assert (G : forall p q, (p < 2)%nat -> (q < 2)%nat -> peq (padd (pmul (ph dlo p) (ph (rev dlo) q)) (pmul (ph dhi p) (ph (rev dhi) q)))
                  (if Nat.eqb (p + q) 1 then mono (M - 1) else pzero)).
    { intros [|[|p]] [|[|q]] Hp Hq; try lia; cbn [Nat.add Nat.eqb]; assumption. }
    apply halves_pr; rewrite ?rev_length; auto. intros p t.
    (* t = 2 s + a + q with q = parity of p *)
    assert (Ht : exists q, (q < 2)%nat /\ Nat.even p = Nat.even q).
    { destruct (Nat.even p) eqn:E; [exists 0%nat|exists 1%nat]; split; try lia; reflexivity. }
    destruct Ht as (q & Hq & Eq). rewrite !(halfc_par _ _ p q) by exact Eq.
    destruct (Nat.lt_ge_cases t q) as [Hs|Hs].
    + assert (t = 0 /\ q = 1)%nat as [-> ->] by lia. destruct (Nat.eqb_spec 0 (L - 1)); [lia|]. unfold halfc. cbn. unfold par. cbn. ring.
    + assert (Hd : exists s a, (a < 2)%nat /\ t = (2 * s + a + q)%nat).
      { exists ((t - q) / 2)%nat, ((t - q) mod 2)%nat. split; [apply Nat.mod_upper_bound; lia|]. pose proof (Nat.div_mod (t - q) 2 ltac:(lia)). lia. }
      destruct Hd as (s & a & Ha & ->). rewrite !halfc_ph by assumption. pose proof (G a q Ha Hq s) as Gs. unfold padd in Gs. rewrite Gs.
      destruct (Nat.eqb_spec (a + q) 1); unfold mono, pzero; destruct (Nat.eqb_spec (2 * s + a + q) (L - 1)); try lia; try reflexivity;
      destruct (Nat.eqb_spec s (M - 1)); try lia; reflexivity.
Qed.
End PS.
