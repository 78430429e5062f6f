(** C80: a cwt coefficient depends only on the samples of one window around its time, and moves with the signal. *)
From Coq Require Import List Arith ZArith QArith Qround Lia Bool.
From Coq Require Import ZifyNat ZifyBool.
From Verif Require Import Base Sums Tensor TensorFacts CoreFacts Plumb Synthesis Learn Cwt SpecCwt CwtFacts PropsCwt.
Import ListNotations.
Local Open Scope nat_scope.
Ltac Zify.zify_post_hook ::= Z.div_mod_to_equations.

Section CL.
Context {K : CRing}.
Add Ring Kring : (cr_th K).
Local Open Scope K_scope.
(** ** specification *)
(** sample z of the signal stored at k on the last axis (length n); 0 before its beginning and after its end *)
Definition sample (data : tensor K) (n : nat) (k : list nat) (z : Z) : K :=
  if (0 <=? z)%Z && (z <? Z.of_nat n)%Z then get data (k ++ [Z.to_nat z]) else 0.
(** the window of a coefficient computed with M wavelet samples: offsets -(M - 1 - (M-2)/2) .. (M-2)/2 + 1 from its time *)
Definition in_cwt_window (M : nat) (d : Z) : Prop := (- (Z.of_nat M - 1 - (Z.of_nat M - 2) / 2) <= d <= (Z.of_nat M - 2) / 2 + 1)%Z.

(** ** proof *)
Definition zval (n : nat) (f : nat -> K) (z : Z) : K := if (0 <=? z)%Z && (z <? Z.of_nat n)%Z then f (Z.to_nat z) else 0.
Lemma lin_conv_z n M (f g : nat -> K) k : lin_conv n M f g k = sumf M (fun r => zval n f (Z.of_nat k - Z.of_nat r) * g r).
Proof.
  unfold lin_conv.
  rewrite (sumf_ext n _ (fun i => sumf M (fun r => if Nat.eqb (i + r) k then f i * g r else 0))).
  - rewrite sumf_swap. apply sumf_ext. intros r Hr. unfold zval.
    destruct (Z.leb_spec 0 (Z.of_nat k - Z.of_nat r)) as [H1|H1]; [destruct (Z.ltb_spec (Z.of_nat k - Z.of_nat r) (Z.of_nat n)) as [H2|H2]|]; cbn [andb].
    + rewrite (sumf_single n (k - r)) by (first [lia | intros i Hi Hne; destruct (Nat.eqb_spec (i + r) k); [lia|reflexivity]]).
      destruct (Nat.eqb_spec (k - r + r) k); [|lia]. f_equal. f_equal. lia.
    + rewrite sumf_zero; [ring|]. intros i Hi. destruct (Nat.eqb_spec (i + r) k); [lia|reflexivity].
    + rewrite sumf_zero; [ring|]. intros i Hi. destruct (Nat.eqb_spec (i + r) k); [lia|reflexivity].
  - intros i Hi. destruct (Nat.leb_spec i k) as [H1|H1]; [destruct (Nat.ltb_spec (k - i) M) as [H2|H2]|]; cbn [andb].
    + rewrite (sumf_single M (k - i)) by (first [lia | intros r Hr Hne; destruct (Nat.eqb_spec (i + r) k); [lia|reflexivity]]).
      destruct (Nat.eqb_spec (i + (k - i)) k); [reflexivity|lia].
    + symmetry. apply sumf_zero. intros r Hr. destruct (Nat.eqb_spec (i + r) k); [lia|reflexivity].
    + symmetry. apply sumf_zero. intros r Hr. destruct (Nat.eqb_spec (i + r) k); [lia|reflexivity].
Qed.
Lemma cwt_value_local root (p : nat -> K) step s M n n' (f f' : nat -> K) t t' : (2 <= M)%nat ->
  (forall d, in_cwt_window M d -> zval n f (Z.of_nat t + d) = zval n' f' (Z.of_nat t' + d)) ->
  cwt_value root p step s M n f t = cwt_value root p step s M n' f' t'.
Proof.
  intros HM H. unfold cwt_value. cbv zeta. rewrite !lin_conv_z.
  assert (E : forall u, (u <= 1)%nat -> forall g, sumf M (fun r => zval n f (Z.of_nat (t + (M - 2) / 2 + u) - Z.of_nat r) * g r) = sumf M (fun r => zval n' f' (Z.of_nat (t' + (M - 2) / 2 + u) - Z.of_nat r) * g r)).
  { intros u Hu g. apply sumf_ext. intros r Hr. f_equal.
    replace (Z.of_nat (t + (M - 2) / 2 + u) - Z.of_nat r)%Z with (Z.of_nat t + (Z.of_nat ((M - 2) / 2 + u) - Z.of_nat r))%Z by lia.
    replace (Z.of_nat (t' + (M - 2) / 2 + u) - Z.of_nat r)%Z with (Z.of_nat t' + (Z.of_nat ((M - 2) / 2 + u) - Z.of_nat r))%Z by lia.
    apply H. unfold in_cwt_window. lia. }
  pose proof (E 1%nat ltac:(lia)) as E1. pose proof (E 0%nat ltac:(lia)) as E0. rewrite !Nat.add_0_r in E0. rewrite E0, E1. reflexivity.
Qed.

Variable C : cplx K.
Variables (kind : wkind) (a : approximation K) (psi : list K) (x : list Q) (step width : Q).
Hypothesis HC : cplx_ok C.
Hypothesis Ha : wavelet_values a psi x.
Hypothesis Hx : increasing_grid x step width.
Hypothesis Hpsi : psi <> [].
Theorem C80_cwt_local data data' (scales scales' : list Q) out out' n n' b b' i i' M :
  wf data -> wf data' -> shp data = b ++ [n] -> shp data' = b' ++ [n'] -> (1 <= n)%nat -> (1 <= n')%nat ->
  (forall s, In s scales -> (0 < s)%Q) -> (forall s, In s scales' -> (0 < s)%Q) ->
  cwt C data scales kind a = Ok out -> cwt C data' scales' kind a = Ok out' ->
  (i < length scales)%nat -> (i' < length scales')%nat -> nth i scales 0%Q = nth i' scales' 0%Q -> n_samples (length psi) width step (nth i scales 0%Q) M ->
  forall k k' : list nat, valid k b -> valid k' b' -> forall t t', (t < n)%nat -> (t' < n')%nat ->
  (forall d, in_cwt_window M d -> sample data n k (Z.of_nat t + d) = sample data' n' k' (Z.of_nat t' + d)) ->
  get out (i :: k ++ [t]) = get out' (i' :: k' ++ [t']).
Proof using HC Ha Hx Hpsi.
  intros W W' S S' Hn Hn' Hs Hs' E E' Hi Hi' Es HM k k' Hk Hk' t t' Ht Ht' Hf.
  assert (R : rank data = (length b + 1)%nat) by (unfold rank; rewrite S, app_length; reflexivity).
  assert (R' : rank data' = (length b' + 1)%nat) by (unfold rank; rewrite S', app_length; reflexivity).
  assert (L : tlast data = n) by (unfold tlast; rewrite R, S, Nat.add_sub, app_nth2, Nat.sub_diag by lia; reflexivity).
  assert (L' : tlast data' = n') by (unfold tlast; rewrite R', S', Nat.add_sub, app_nth2, Nat.sub_diag by lia; reflexivity).
  destruct (C46_cwt C kind a psi x step width HC Ha Hx Hpsi data scales) as [[_ X]|[Fa (o & X & _ & _ & G)]]; try assumption; try lia; [intros ->; cbn in Hi; lia|congruence|].
  destruct (C46_cwt C kind a psi x step width HC Ha Hx Hpsi data' scales') as [[_ X']|[_ (o' & X' & _ & _ & G')]]; try assumption; try lia; [intros ->; cbn in Hi'; lia|congruence|].
  rewrite E in X. injection X as <-. rewrite E' in X'. injection X' as <-.
  assert (HM2 : (2 <= M)%nat).
  { rewrite Forall_forall in Fa. assert (N1 := Fa _ (nth_In _ 0%Q Hi)).
    destruct (int_psi_scale_ok psi x step width (nth i scales 0%Q) (grid_of x step width Hx) (Hs _ (nth_In _ _ Hi)) Hpsi) as (M' & HM' & HM1 & _).
    pose proof (n_samples_unique _ _ _ _ _ _ HM HM') as <-. destruct (Nat.eq_dec M 1) as [->|]; [contradiction|lia]. }
  assert (V : forall kk bb v nn, valid kk bb -> (v < nn)%nat -> valid (kk ++ [v]) (bb ++ [nn])) by (intros; apply valid_app; [assumption|repeat constructor; assumption]).
  rewrite (G i M (k ++ [t]) Hi HM) by (rewrite S; apply V; assumption). rewrite (G' i' M (k' ++ [t']) Hi') by (rewrite <- ?Es, ?S'; [exact HM] || (rewrite S'; apply V; assumption)).
  rewrite <- Es, L, L', R, R', !Nat.add_sub. rewrite <- (valid_length _ _ Hk), <- (valid_length _ _ Hk').
  rewrite !app_nth2, !Nat.sub_diag by lia. cbn [nth]. f_equal. apply cwt_value_local; [exact HM2|].
  intros d Hd. specialize (Hf d Hd). unfold sample, zval in *.
  rewrite !updn_app2, !Nat.sub_diag by lia. cbn [updn]. exact Hf.
Qed.
End CL.
