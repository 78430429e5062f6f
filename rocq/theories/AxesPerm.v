(** The order in which the transformed axes are listed: it only permutes the roles of the filters. *)
From Coq Require Import List Arith ZArith Lia Bool String Permutation.
From Verif Require Import Base Sums Tensor TensorFacts Perm Plumb Spec CoreFacts SepFacts.
Import ListNotations.
Local Open Scope K_scope.

Section AP.
Context {K : CRing}.
Add Ring Kring : (cr_th K).
Implicit Types x y t : tensor K.

Definition dstep (m : mode) (s idx : list nat) (a j : nat) : option nat := ext_idx m (nth a s 0%nat) (2 * Z.of_nat (nth a idx 0%nat) + 1 - Z.of_nat j)%Z.
(** the value of a DWT along the (axis, filter) pairs l at position idx, axis by axis *)
Fixpoint dval (m : mode) (s idx : list nat) (l : list (nat * list K)) (P : list nat -> K) (cur : list nat) : K :=
  match l with
  | [] => P cur
  | (a, f) :: l' => sumf (List.length f) (fun j => nth j f 0 * match dstep m s idx a j with Some i => dval m s idx l' P (updn a i cur) | None => 0 end)
  end.
Lemma dval_ext m s idx l P Q cur : (forall c, P c = Q c) -> dval m s idx l P cur = dval m s idx l Q cur.
Proof.
  intros H. revert cur. induction l as [|[a f] l IH]; intros cur; cbn [dval]; [apply H|]. apply sumf_ext. intros j _. destruct (dstep _ _ _ _ _); [rewrite IH; reflexivity|reflexivity].
Qed.
Lemma dval_perm m s idx l l' P cur : Permutation l l' -> NoDup (map fst l) -> dval m s idx l P cur = dval m s idx l' P cur.
Proof.
  intros Hp. revert cur. induction Hp as [|[a f] l l' Hp IH|[a f] [b g] l|l l' l'' Hp1 IH1 Hp2 IH2]; intros cur Hn.
  - reflexivity.
  - cbn [dval]. inversion Hn; subst. apply sumf_ext. intros j _. destruct (dstep _ _ _ _ _); [rewrite IH by assumption; reflexivity|reflexivity].
  - cbn [dval]. cbn in Hn. inversion Hn as [|? ? Hn1 _]; subst. cbn in Hn1.
    set (F := fun j i => nth j g 0 * (nth i f 0 * match dstep m s idx b j, dstep m s idx a i with Some p, Some q => dval m s idx l P (updn a q (updn b p cur)) | _, _ => 0 end)).
    transitivity (sumf (List.length g) (fun j => sumf (List.length f) (fun i => F j i))).
    + apply sumf_ext. intros j _. unfold F. destruct (dstep m s idx b j).
      * rewrite <- sumf_mul_l. apply sumf_ext. intros i _. reflexivity.
      * rewrite sumf_zero; [ring|]. intros; ring.
    + rewrite sumf_swap. apply sumf_ext. intros i _. unfold F. destruct (dstep m s idx a i) as [q|].
      * rewrite <- sumf_mul_l. apply sumf_ext. intros j _. destruct (dstep m s idx b j) as [p|]; [|ring]. rewrite (updn_comm a b) by tauto. ring.
      * rewrite sumf_zero; [ring|]. intros j _. destruct (dstep m s idx b j); ring.
  - rewrite IH1 by exact Hn. apply IH2. apply (Permutation_NoDup (l := map fst l)); [apply Permutation_map; exact Hp1|exact Hn].
Qed.

Lemma dval_dwt m s idx x cur nax : forall fs, List.length fs = List.length nax -> NoDup nax ->
  dwt_op fs m (gather nax 0%nat s) (fun is => get x (upds nax is cur)) (gather nax 0%nat idx) = dval m s idx (combine nax fs) (get x) cur.
Proof.
  revert cur. induction nax as [|a nax IH]; intros cur [|f fs] Hl Hn; cbn in Hl; try discriminate.
  - unfold dwt_op. cbn. ring.
  - inversion Hn as [|? ? Hna Hn']; subst. unfold dwt_op. cbn [map sumI combine dval gather]. apply sumf_ext. intros j _. unfold dstep.
    cbn [taps map2]. unfold ext_get. cbn [ext_idxs]. destruct (ext_idx m (nth a s 0%nat) (2 * Z.of_nat (nth a idx 0%nat) + 1 - Z.of_nat j)) as [i|].
    + specialize (IH (updn a i cur) fs ltac:(lia) Hn'). unfold dwt_op in IH. rewrite <- IH, <- sumI_mul_l. apply sumI_ext. intros js _. unfold ext_get.
      change (map (fun i0 => nth i0 s 0%nat) nax) with (gather nax 0%nat s). change (map (fun i0 => nth i0 idx 0%nat) nax) with (gather nax 0%nat idx).
      destruct (ext_idxs m _ _) as [is|]; [|ring]. cbn [upds]. rewrite upds_updn_notin by exact Hna. ring.
    + rewrite sumI_zero; [ring|]. intros; ring.
Qed.

(** output shapes *)
Lemma upds_perm (l l' : list (nat * nat)) idx : Permutation l l' -> NoDup (map fst l) -> upds (map fst l) (map snd l) idx = upds (map fst l') (map snd l') idx.
Proof.
  intros Hp. induction Hp as [|[a v] l l' Hp IH|[a v] [b w] l|l l' l'' Hp1 IH1 Hp2 IH2]; intros Hn.
  - reflexivity.
  - cbn. inversion Hn; subst. rewrite IH by assumption. reflexivity.
  - cbn. inversion Hn as [|? ? Hn1 _]; subst. cbn in Hn1. apply updn_comm. intros E. apply Hn1. left. congruence.
  - rewrite IH1 by exact Hn. apply IH2. apply (Permutation_NoDup (l := map fst l)); [apply Permutation_map; exact Hp1|exact Hn].
Qed.
Lemma map_fst_comb {A B} (l : list A) (l' : list B) : List.length l' = List.length l -> map fst (combine l l') = l.
Proof. revert l'. induction l as [|a l IH]; intros [|b l'] H; cbn in *; try discriminate; [reflexivity|]. rewrite IH by lia. reflexivity. Qed.
Lemma map_snd_comb {A B} (l : list A) (l' : list B) : List.length l' = List.length l -> map snd (combine l l') = l'.
Proof. revert l'. induction l as [|a l IH]; intros [|b l'] H; cbn in *; try discriminate; [reflexivity|]. rewrite IH by lia. reflexivity. Qed.

Lemma dwt_axes_pairs m x (l l' : list (nat * list K)) : Permutation l l' -> NoDup (map fst l) ->
  dwt_axes (map snd l) m (map fst l) x = dwt_axes (map snd l') m (map fst l') x.
Proof.
  intros Hp Hn. assert (Hn' : NoDup (map fst l')) by (apply (Permutation_NoDup (l := map fst l)); [apply Permutation_map; exact Hp|exact Hn]).
  assert (Hsh : forall q : list (nat * list K), upds (map fst q) (map2 (fun f n => dwt_len (List.length f) n) (map snd q) (gather (map fst q) 0%nat (shp x))) (shp x)
     = upds (map fst (map (fun p => (fst p, dwt_len (List.length (snd p)) (nth (fst p) (shp x) 0%nat))) q)) (map snd (map (fun p => (fst p, dwt_len (List.length (snd p)) (nth (fst p) (shp x) 0%nat))) q)) (shp x)).
  { intros q. rewrite !map_map. cbn [fst snd]. f_equal. induction q as [|[a f] q IH]; [reflexivity|]. cbn. f_equal. exact IH. }
  unfold dwt_axes, along_axes. cbv zeta. rewrite !Hsh.
  rewrite (upds_perm _ (map (fun p => (fst p, dwt_len (List.length (snd p)) (nth (fst p) (shp x) 0%nat))) l')); [|apply Permutation_map; exact Hp|rewrite map_map; exact Hn].
  apply make_ext. intros idx _.
  assert (E : forall q : list (nat * list K), combine (map fst q) (map snd q) = q) by (intros q; induction q as [|[a f] q IH]; [reflexivity|]; cbn; rewrite IH; reflexivity).
  rewrite !dval_dwt; rewrite ?map_length; auto. rewrite !E. apply dval_perm; assumption.
Qed.

(** the same axes in the order given by p: position i of the new list is position p_i of the old one *)
Lemma gather_perm {A} (l : list A) d p : Permutation p (seq 0 (List.length l)) -> Permutation (gather p d l) l.
Proof.
  intros Hp. unfold gather. eapply Permutation_trans; [apply Permutation_map; exact Hp|].
  assert (E : map (fun i => nth i l d) (seq 0 (List.length l)) = l).
  { clear. induction l as [|a l IH]; [reflexivity|]. cbn [List.length seq map nth]. f_equal. rewrite <- seq_shift, map_map. exact IH. }
  rewrite E. reflexivity.
Qed.
Lemma gather_combine {A B} (l : list A) (l' : list B) d d' p : List.length l' = List.length l ->
  gather p (d, d') (combine l l') = combine (gather p d l) (gather p d' l').
Proof. intros Hl. induction p as [|i p IH]; [reflexivity|]. cbn. rewrite combine_nth by lia. f_equal. exact IH. Qed.
Theorem dwt_axes_perm m x nax (fs : list (list K)) p : NoDup nax -> List.length fs = List.length nax -> Permutation p (seq 0 (List.length nax)) ->
  dwt_axes (gather p [] fs) m (gather p 0%nat nax) x = dwt_axes fs m nax x.
Proof.
  intros Hn Hl Hp. pose proof (dwt_axes_pairs m x (combine nax fs) (gather p (0%nat, []) (combine nax fs))) as H.
  rewrite gather_combine, !map_fst_comb, !map_snd_comb in H; try (rewrite ?gather_length; congruence || exact Hl || reflexivity).
  symmetry. apply H; [|exact Hn]. symmetry. rewrite <- gather_combine by exact Hl. apply gather_perm. rewrite combine_length, Hl, Nat.min_id. exact Hp.
Qed.
Lemma gather_repeat {A} (v d : A) n p : (forall i, In i p -> (i < n)%nat) -> gather p d (repeat v n) = repeat v (List.length p).
Proof.
  induction p as [|i p IH]; intros H; [reflexivity|]. cbn [gather map List.length repeat]. change (map (fun d0 => nth d0 (repeat v n) d) p) with (gather p d (repeat v n)). rewrite IH by (intros; apply H; right; assumption). f_equal. rewrite (nth_indep _ _ v) by (rewrite repeat_length; apply H; left; reflexivity). apply nth_repeat.
Qed.
Theorem approx_perm (lo : list K) m nax p j x : NoDup nax -> Permutation p (seq 0 (List.length nax)) ->
  approx lo m (gather p 0%nat nax) j x = approx lo m nax j x.
Proof.
  intros Hn Hp. assert (Hlen : List.length p = List.length nax) by (rewrite (Permutation_length Hp), seq_length; reflexivity).
  unfold approx. induction j as [|j IH]; [reflexivity|]. cbn [Nat.iter nat_rect]. unfold Nat.iter in *. rewrite IH. rewrite gather_length, Hlen. 
  rewrite <- (dwt_axes_perm m _ nax (repeat lo (List.length nax)) p); auto; [|apply repeat_length].
  rewrite gather_repeat; [rewrite Hlen; reflexivity|]. intros i Hi. apply (Permutation_in _ Hp) in Hi. apply in_seq in Hi. lia.
Qed.
Theorem detail_perm (lo : list K) fs m nax p j x : NoDup nax -> List.length fs = List.length nax -> Permutation p (seq 0 (List.length nax)) ->
  detail lo (gather p [] fs) m (gather p 0%nat nax) j x = detail lo fs m nax j x.
Proof. intros Hn Hl Hp. unfold detail. rewrite approx_perm by assumption. apply dwt_axes_perm; assumption. Qed.
End AP.
