(** A concrete case of C80: complex data, two signals that agree on the window of one coefficient, moved by one sample. *)
From Coq Require Import List Arith ZArith QArith Qround Qreals Reals Lra Lia Bool.
From Verif Require Import Base Sums Tensor TensorFacts Learn Cwt SpecCwt CwtFacts PropsCwt PropsCwtLocal Examples ExCwt.
Import ListNotations.
Local Open Scope R_scope.
Definition ex_sig : tensor CK := mkT (K := CK) f32 [7]%nat [(5, 0); (1, 0); (2, 0); (3, 0); (4, 0); (6, 0); (7, 0)].
Definition ex_sig' : tensor CK := mkT (K := CK) f32 [6]%nat [(1, 0); (2, 0); (3, 0); (4, 0); (6, 0); (9, 0)].
Theorem ex_C80 : exists out out', cwt CxC ex_sig [1]%Q (WContinuous true) (Approx2 (K := CK) ex_psi ex_x) = Ok out /\ cwt CxC ex_sig' [1]%Q (WContinuous true) (Approx2 (K := CK) ex_psi ex_x) = Ok out' /\
  (forall d, in_cwt_window 4 d -> sample ex_sig 7 [] (3 + d) = sample ex_sig' 6 [] (2 + d)) /\ sample ex_sig 7 [] 0 <> sample ex_sig' 6 [] (-1) /\
  get out [0; 3]%nat = get out' [0; 2]%nat.
Proof.
  assert (G : increasing_grid ex_x 1 3) by (repeat split; try reflexivity; cbn; lia).
  assert (N1 : n_samples 4 3 1 1 4). { intros k. unfold Qlt. cbn [Qnum Qden inject_Z Qmult Qplus]. lia. }
  assert (P : forall s, In s [1]%Q -> (0 < s)%Q) by (intros s [<-|[]]; reflexivity).
  assert (A : forall dt, wf dt -> (1 <= rank dt)%nat -> (1 <= tlast dt)%nat -> exists o, cwt CxC dt [1]%Q (WContinuous true) (Approx2 (K := CK) ex_psi ex_x) = Ok o).
  { intros dt H1 H2 H3. destruct (C46_cwt CxC (WContinuous true) (Approx2 (K := CK) ex_psi ex_x) ex_psi ex_x 1 3 CxC_ok (or_introl eq_refl) G ltac:(discriminate) dt [1]%Q H1 H2 H3 ltac:(discriminate) P) as [[X _]|[_ (o & E & _)]]; [|eauto].
    exfalso. inversion X as [? ? H|? ? H]; subst; [|inversion H]. pose proof (n_samples_unique _ _ _ _ _ _ H N1). lia. }
  destruct (A ex_sig eq_refl ltac:(cbn; lia) ltac:(cbn; lia)) as (o & E). destruct (A ex_sig' eq_refl ltac:(cbn; lia) ltac:(cbn; lia)) as (o' & E'). exists o, o'.
  assert (W : forall d, in_cwt_window 4 d -> sample ex_sig 7 [] (3 + d) = sample ex_sig' 6 [] (2 + d)).
  { intros d Hd. unfold in_cwt_window in Hd. cbn in Hd. assert (d = -2 \/ d = -1 \/ d = 0 \/ d = 1 \/ d = 2)%Z as Hd' by lia. repeat destruct Hd' as [->|Hd']; try subst d; reflexivity. }
  split; [exact E|]. split; [exact E'|]. split; [exact W|]. split; [cbn; intros X; injection X; lra|].
  apply (C80_cwt_local CxC (WContinuous true) (Approx2 (K := CK) ex_psi ex_x) ex_psi ex_x 1 3 CxC_ok (or_introl eq_refl) G ltac:(discriminate) ex_sig ex_sig' [1]%Q [1]%Q o o' 7 6 [] [] 0 0 4 eq_refl eq_refl eq_refl eq_refl
    ltac:(lia) ltac:(lia) P P E E' ltac:(cbn; lia) ltac:(cbn; lia) eq_refl N1 [] [] (Forall2_nil _) (Forall2_nil _) 3 2 ltac:(lia) ltac:(lia) W).
Qed.
