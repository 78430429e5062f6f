(** C62: the order (and the sign) in which the transformed axes are named. *)
From Coq Require Import List Arith ZArith Lia Bool String Ascii Permutation.
From Verif Require Import Base Sums Tensor TensorFacts Util Perm Plumb Accept Spec Conv1 CoreFacts Wave1 Wave1Inv Examples Props1 Conv2 Conv3 Spec2 WaveN Props2 Sep SpecSep SepFacts PropsSep Unified AxesPerm.
Import ListNotations.

(** the axes of the second call, normalised, are those of the first one in the order p *)
Definition reordered (r : nat) (axes axes' : list Z) (p : list nat) : Prop :=
  Permutation p (seq 0 (List.length axes)) /\ map (norm_axis r) axes' = gather p 0%nat (map (norm_axis r) axes).
(** the letters of a key in the order p *)
Definition perm_key (p : list nat) (k : string) : string := string_of_list_ascii (gather p "a"%char (list_ascii_of_string k)).
Definition same_fn (T T' : transform) : Prop :=
  match T, T' with
  | Twavedec _, Twavedec _ | Twavedec2 _, Twavedec2 _ | Twavedec3 _, Twavedec3 _ | Tfswavedec2 _, Tfswavedec2 _ | Tfswavedec3 _, Tfswavedec3 _ => True
  | _, _ => False
  end.

Section Ax.
Context {K : CRing}.
Implicit Types x y t : tensor K.
Implicit Types w : wavelet K.

(** how the entries of the two results correspond: tensors are equal; in a (horizontal, vertical, diagonal) tuple the first
    two are exchanged when the two axes are; in a dictionary the letters of the keys are permuted *)
Definition reordered_val (p : list nat) (v v' : pyval K) : Prop :=
  match v, v' with
  | PT t, PT t' => t' = t
  | PTup [h; ve; d], PTup [h'; ve'; d'] => d' = d /\ (p = [0; 1] -> h' = h /\ ve' = ve) /\ (p = [1; 0] -> h' = ve /\ ve' = h)
  | PDict d, PDict d' => map fst d' = map fst d /\ forall k, In k (map fst d) -> In (perm_key p k) (map fst d) /\ Sep.dict_get d' (perm_key p k) = Sep.dict_get d k
  | _, _ => False
  end.

Lemma perm2 p : Permutation p (seq 0 2) -> p = [0; 1] \/ p = [1; 0].
Proof.
  intros H. pose proof (Permutation_length H) as Hl. destruct p as [|a [|b [|]]]; try discriminate.
  assert (Ha : In a (seq 0 2)) by (apply (Permutation_in _ H); left; reflexivity).
  assert (Hb : In b (seq 0 2)) by (apply (Permutation_in _ H); right; left; reflexivity).
  assert (Hn : NoDup [a; b]) by (apply (Permutation_NoDup (l := seq 0 2)); [symmetry; exact H|apply seq_NoDup]).
  cbn in Ha, Hb. inversion Hn as [|? ? Hn1 _]; subst. cbn in Hn1. destruct Ha as [<-|[<-|[]]], Hb as [<-|[<-|[]]]; tauto.
Qed.
Lemma perm3 p : Permutation p (seq 0 3) -> In p [[0; 1; 2]; [0; 2; 1]; [1; 0; 2]; [1; 2; 0]; [2; 0; 1]; [2; 1; 0]].
Proof.
  intros H. pose proof (Permutation_length H) as Hl. destruct p as [|a [|b [|c [|]]]]; try discriminate.
  assert (Ha : In a (seq 0 3)) by (apply (Permutation_in _ H); left; reflexivity).
  assert (Hb : In b (seq 0 3)) by (apply (Permutation_in _ H); right; left; reflexivity).
  assert (Hc : In c (seq 0 3)) by (apply (Permutation_in _ H); right; right; left; reflexivity).
  assert (Hn : NoDup [a; b; c]) by (apply (Permutation_NoDup (l := seq 0 3)); [symmetry; exact H|apply seq_NoDup]).
  inversion Hn as [|? ? Hn1 Hn2]; subst. inversion Hn2 as [|? ? Hn3 _]; subst. cbn in Ha, Hb, Hc, Hn1, Hn3.
  destruct Ha as [<-|[<-|[<-|[]]]], Hb as [<-|[<-|[<-|[]]]], Hc as [<-|[<-|[<-|[]]]]; cbn; tauto.
Qed.
Lemma lasl (l : list ascii) : list_ascii_of_string (string_of_list_ascii l) = l.
Proof. apply list_ascii_of_string_of_list_ascii. Qed.
Lemma key_filters_perm (lo hi : list K) p k : (forall i, In i p -> i < String.length k) -> key_filters lo hi (perm_key p k) = gather p [] (key_filters lo hi k).
Proof.
  intros H. unfold key_filters, perm_key. rewrite lasl. unfold gather. rewrite map_map. apply map_ext_in. intros i Hi.
  assert (E : List.length (list_ascii_of_string k) = String.length k) by (clear; induction k as [|c k IH]; [reflexivity|cbn; rewrite IH; reflexivity]).
  set (F := fun c : ascii => if Ascii.eqb c "d" then hi else lo).
  rewrite (nth_indep (map F (list_ascii_of_string k)) [] (F "a"%char)) by (rewrite map_length, E; apply H; exact Hi). rewrite map_nth. reflexivity.
Qed.
Lemma dict_get_map (g : string -> tensor K) ks k : In k ks -> Sep.dict_get (map (fun q => (q, g q)) ks) k = Some (g k).
Proof.
  induction ks as [|q ks IH]; intros H; [destruct H|]. cbn. destruct (String.eqb_spec q k) as [->|E]; [reflexivity|]. apply IH. destruct H; [contradiction|assumption].
Qed.
Lemma dict_case (lo hi : list K) m nax p j x (ks : list string) : NoDup nax -> Permutation p (seq 0 (List.length nax)) ->
  (forall k, In k ks -> String.length k = List.length nax /\ In (perm_key p k) ks) ->
  reordered_val p (PDict (map (fun k => (k, detail lo (key_filters lo hi k) m nax j x)) ks)) (PDict (map (fun k => (k, detail lo (key_filters lo hi k) m (gather p 0 nax) j x)) ks)).
Proof.
  intros Hn Hp Hk. cbn [reordered_val]. rewrite !map_map. cbn [fst]. split; [reflexivity|]. rewrite map_id. intros k Hin. destruct (Hk k Hin) as [Hlen Hin']. split; [exact Hin'|].
  rewrite (dict_get_map (fun k => detail lo (key_filters lo hi k) m (gather p 0 nax) j x)) by exact Hin'.
  rewrite (dict_get_map (fun k => detail lo (key_filters lo hi k) m nax j x)) by exact Hin. f_equal.
  rewrite key_filters_perm by (intros i Hi; apply (Permutation_in _ Hp) in Hi; apply in_seq in Hi; lia). apply detail_perm; auto.
  clear - Hlen. rewrite <- Hlen. unfold key_filters. rewrite map_length. clear. induction k as [|c k IH]; [reflexivity|cbn; rewrite IH; reflexivity].
Qed.

Lemma fold_min_perm l l' a : Permutation l l' -> fold_left Nat.min l a = fold_left Nat.min l' a.
Proof.
  intros H. revert a. induction H as [| | |l1 l2 l3 _ IH1 _ IH2]; intros b; cbn; auto; [|rewrite IH1; apply IH2]. f_equal. lia.
Qed.
Lemma fold_min_le l a : fold_left Nat.min l a <= a.
Proof. revert a. induction l as [|b l IH]; intros a; cbn; [lia|]. pose proof (IH (Nat.min a b)). lia. Qed.
Lemma num_levels_perm level L ns ns' : Permutation ns ns' -> num_levels level L ns = num_levels level L ns'.
Proof.
  intros H. destruct level as [z|]; [reflexivity|]. cbn [num_levels].
  assert (G : forall l, match l with [] => 0 | n :: r => fold_left Nat.min (map (default_level L) r) (default_level L n) end = match l with [] => 0 | n :: _ => fold_left Nat.min (map (default_level L) l) (default_level L n) end).
  { intros [|n r]; [reflexivity|]. cbn [map fold_left]. rewrite Nat.min_id. reflexivity. }
  rewrite !G. destruct ns as [|n r], ns' as [|n' r']; auto.
  - apply Permutation_nil in H. discriminate.
  - symmetry in H. apply Permutation_nil in H. discriminate.
  - pose proof (Permutation_map (default_level L) H) as HP. rewrite (fold_min_perm _ _ _ HP).
    assert (In (default_level L n) (map (default_level L) (n' :: r'))) by (apply (Permutation_in _ HP); left; reflexivity).
    assert (In (default_level L n') (map (default_level L) (n' :: r'))) by (left; reflexivity).
    generalize dependent (default_level L n). generalize dependent (default_level L n'). intros b Hb a Ha.
    assert (F : forall (l : list nat) a b, In a l -> fold_left Nat.min l (Nat.min a b) = fold_left Nat.min l b).
    { clear. induction l as [|c l IH]; intros a b Hin; [destruct Hin|]. cbn. destruct Hin as [->|Hin]; [f_equal; lia|].
      rewrite <- (IH a (Nat.min b c)) by exact Hin. f_equal. lia. }
    rewrite <- (F _ b a Hb), <- (F _ a b Ha). f_equal. lia.
Qed.

Theorem C62_axes_order T T' x w m L level c axes axes' p : wf x -> same_fn T T' ->
  List.length (dec_lo w) = L -> List.length (dec_hi w) = L -> 2 <= L -> Nat.even L = true ->
  (is3 T = true -> 2 <= List.length (pc_items c)) -> (isfs T = true -> level = None -> ~ In 0 (shp x)) ->
  hint_axes (thint T) (tdim T) = Some axes -> hint_axes (thint T') (tdim T') = Some axes' -> axes_ok (rank x) axes' ->
  reordered (rank x) axes axes' p ->
  analyse T x w (Some (mode_name m)) level = Ok c ->
  exists c', analyse T' x w (Some (mode_name m)) level = Ok c' /\ Forall2 (reordered_val p) (pc_items c) (pc_items c').
Proof.
  intros Hw Hsf H1 H2 HL He H3 Hfs Hh Hh' Hax' [Hp Hr] H.
  edestruct (analyse_inv T x w m L level) with (8 := H) as (Hd & axes1 & Hh1 & Hla & Hax & HJ); try eassumption.
  { intros E. left. auto. }
  rewrite Hh in Hh1. injection Hh1 as <-. cbv zeta in HJ. destruct HJ as (HJ3 & HJfs & Hlev & ->).
  set (nax := map (norm_axis (rank x)) axes) in *. pose proof (good_axes_ok _ _ Hax) as [Hn Hlt]. fold nax in Hn, Hlt.
  assert (Hlen : List.length nax = List.length axes) by (unfold nax; apply map_length). rewrite <- Hlen in Hp.
  assert (HD : tdim T' = tdim T) by (destruct T, T'; try contradiction; reflexivity).
  assert (Hns : Permutation (gather (gather p 0 nax) 0 (shp x)) (gather nax 0 (shp x))).
  { unfold gather at 1 3. apply Permutation_map. apply gather_perm. exact Hp. }
  assert (EJ : num_levels level L (gather (gather p 0 nax) 0 (shp x)) = num_levels level L (gather nax 0 (shp x))) by (apply num_levels_perm; exact Hns).
  pose proof (analyse_ok T' x w m L level axes' Hw Hd Hh') as A. cbv zeta in A. rewrite Hr, EJ in A. fold nax in A. eexists. split.
  - apply A; auto.
    + rewrite HD. rewrite <- Hla, <- Hlen. rewrite <- (map_length (norm_axis (rank x)) axes'), Hr, gather_length, (Permutation_length Hp), seq_length. reflexivity.
    + intros E. apply HJ3. destruct T, T'; try contradiction; exact E.
    + intros E El. assert (E' : isfs T = true) by (destruct T, T'; try contradiction; exact E). eapply Permutation_Forall; [symmetry; exact Hns|]. exact (HJfs E' El).
    + unfold levels_all in *. eapply Permutation_Forall; [symmetry; exact Hns|]. exact Hlev.
  - unfold tspec. cbn [pc_items]. set (J := num_levels level L (gather nax 0 (shp x))) in *. constructor; [cbn; apply approx_perm; assumption|].
    assert (G : forall js, Forall2 (reordered_val p) (map (fun j => tdetails T (dec_lo w) (dec_hi w) m nax j x) js) (map (fun j => tdetails T' (dec_lo w) (dec_hi w) m (gather p 0 nax) j x) js)).
    2: { apply G. }
    intros js. induction js as [|j js IH]; cbn [map]; constructor; [|exact IH]. clear IH.
    assert (HN : List.length nax = tdim T) by congruence.
    destruct T, T'; try contradiction; cbn [tdetails tdim] in *.
    + cbn [reordered_val]. rewrite <- (detail_perm (dec_lo w) [dec_hi w] m nax p j x) by (auto; cbn; congruence).
      rewrite HN in Hp. cbn in Hp. apply Permutation_sym, Permutation_length_1_inv in Hp. subst p. reflexivity.
    + unfold details2. cbn [reordered_val]. rewrite HN in Hp. split; [|split].
      * rewrite <- (detail_perm (dec_lo w) [dec_hi w; dec_hi w] m nax p j x) by (rewrite ?HN; auto). destruct (perm2 p Hp) as [-> | ->]; reflexivity.
      * intros ->. rewrite <- (detail_perm (dec_lo w) [dec_hi w; dec_lo w] m nax [0; 1] j x), <- (detail_perm (dec_lo w) [dec_lo w; dec_hi w] m nax [0; 1] j x) by (rewrite ?HN; auto). split; reflexivity.
      * intros ->. rewrite <- (detail_perm (dec_lo w) [dec_hi w; dec_lo w] m nax [1; 0] j x), <- (detail_perm (dec_lo w) [dec_lo w; dec_hi w] m nax [1; 0] j x) by (rewrite ?HN; auto). split; reflexivity.
    + unfold details3. apply dict_case; auto. rewrite HN in *. intros k Hk. apply perm3 in Hp.
      split; [cbn in Hk; intuition (subst; reflexivity)|]. cbn in Hp. clear - Hk Hp. cbn in Hk.
      destruct Hp as [<-|[<-|[<-|[<-|[<-|[<-|[]]]]]]]; destruct Hk as [<-|[<-|[<-|[<-|[<-|[<-|[<-|[]]]]]]]]; cbn; tauto.
    + unfold detailsN. rewrite gather_length, (Permutation_length Hp), seq_length, HN. apply dict_case; auto. rewrite HN in *. intros k Hk. apply perm2 in Hp.
      split; [cbn in Hk; intuition (subst; reflexivity)|]. clear - Hk Hp. cbn in Hk.
      destruct Hp as [->| ->]; destruct Hk as [<-|[<-|[<-|[]]]]; cbn; tauto.
    + unfold detailsN. rewrite gather_length, (Permutation_length Hp), seq_length, HN. apply dict_case; auto. rewrite HN in *. intros k Hk. apply perm3 in Hp.
      split; [cbn in Hk; intuition (subst; reflexivity)|]. cbn in Hp. clear - Hk Hp. cbn in Hk.
      destruct Hp as [<-|[<-|[<-|[<-|[<-|[<-|[]]]]]]]; destruct Hk as [<-|[<-|[<-|[<-|[<-|[<-|[<-|[]]]]]]]]; cbn; tauto.
Qed.
End Ax.

(** concrete: the axes of a [5; 2; 6] tensor named (0, -1), then (2, 0): horizontal and vertical exchanged *)
Theorem ex_C62 : reordered 3 [0%Z; (-1)%Z] [2%Z; 0%Z] [1; 0] /\
  match wavedec2 (exT [5; 2; 6]) exW4 (Some "reflect"%string) (Some 1%Z) (AxSeq [0%Z; (-1)%Z]), wavedec2 (exT [5; 2; 6]) exW4 (Some "reflect"%string) (Some 1%Z) (AxSeq [2%Z; 0%Z]) with
  | Ok c, Ok c' => match pc_items c, pc_items c' with
      | [PT a; PTup [h; v; d]], [PT a'; PTup [h'; v'; d']] => a' = a /\ h' = v /\ v' = h /\ d' = d /\ dat h <> dat v
      | _, _ => False end
  | _, _ => False end.
Proof. split; [split; [apply perm_swap|reflexivity]|]. vm_compute. repeat split. discriminate. Qed.
