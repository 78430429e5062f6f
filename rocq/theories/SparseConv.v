(** Values of sparse_kron, the convolution matrices, row replacement and identity extension. *)
From Coq Require Import List Arith ZArith Lia Bool String Ring.
From Verif Require Import Base Sums Tensor TensorFacts Sparse SparseFacts.
Import ListNotations.

Local Arguments Nat.div : simpl never.
Local Arguments Nat.modulo : simpl never.
Local Arguments Nat.ltb : simpl never.
Section SC.
Context {K : CRing}.
Add Ring Kring : (cr_th K).
Open Scope K_scope.
Implicit Types (m : smat K) (t : tensor K).
Notation ent := (list (nat * nat * K)).

(** ** Kronecker products *)
Definition kron_ent (rb cb : nat) (l l' : ent) : ent :=
  flat_map (fun e => map (fun e' => ((fst (fst e) * rb + fst (fst e'))%nat, (snd (fst e) * cb + snd (fst e'))%nat, kmul (snd e) (snd e'))) l') l.
Lemma divmod_uniq q a b c d : (b < q -> d < q -> a * q + b = c * q + d -> a = c /\ b = d)%nat.
Proof.
  intros Hb Hd E. assert (H : (a = c)%nat); [|subst; split; [reflexivity|lia]].
  assert (E2 : ((a * q + b) / q = (c * q + d) / q)%nat) by (rewrite E; reflexivity).
  rewrite !Nat.div_add_l, !Nat.div_small in E2 by lia. lia.
Qed.
Lemma eg_kron rb cb (l l' : ent) i j i' j' : Forall (fun e => in_size rb cb e = true) l' -> (i' < rb)%nat -> (j' < cb)%nat ->
  ent_get (kron_ent rb cb l l') (i * rb + i') (j * cb + j') = ent_get l i j * ent_get l' i' j'.
Proof.
  intros Hl Hi Hj. unfold kron_ent. induction l as [|[[a b] v] l IH]; [cbn [flat_map]; rewrite !eg_nil; ring|].
  cbn [flat_map]. rewrite eg_app, IH, eg_cons. cbn [fst snd]. clear IH. transitivity ((if at_pos i j (a, b, v) then v else 0) * ent_get l' i' j' + ent_get l i j * ent_get l' i' j'); [f_equal|ring].
  induction l' as [|[[c d] u] l' IH]; [cbn [map]; rewrite !eg_nil; ring|]. cbn [map]. rewrite !eg_cons, IH by exact (Forall_inv_tail Hl). cbn [fst snd].
  apply Forall_inv in Hl. apply in_size_spec in Hl. cbn [fst snd] in Hl.
  transitivity ((if at_pos i j (a, b, v) then v else 0) * (if at_pos i' j' (c, d, u) then u else 0) + (if at_pos i j (a, b, v) then v else 0) * ent_get l' i' j'); [f_equal|ring].
  destruct (at_pos i j (a, b, v)) eqn:E1; destruct (at_pos i' j' (c, d, u)) eqn:E2.
  - apply at_pos_spec in E1, E2. cbn [fst snd] in *. destruct E1 as [-> ->], E2 as [-> ->]. rewrite (proj2 (at_pos_spec _ _ _)); [reflexivity|]. auto.
  - destruct (at_pos (i * rb + i') _ _) eqn:E3; [|ring]. exfalso. apply at_pos_spec in E3. cbn [fst snd] in E3. destruct E3 as [E3 E4].
    apply divmod_uniq in E3; [|lia|lia]. apply divmod_uniq in E4; [|lia|lia]. assert (at_pos i' j' (c, d, u) = true) by (apply at_pos_spec; cbn [fst snd]; lia). congruence.
  - destruct (at_pos (i * rb + i') _ _) eqn:E3; [|ring]. exfalso. apply at_pos_spec in E3. cbn [fst snd] in E3. destruct E3 as [E3 E4].
    apply divmod_uniq in E3; [|lia|lia]. apply divmod_uniq in E4; [|lia|lia]. assert (at_pos i j (a, b, v) = true) by (apply at_pos_spec; cbn [fst snd]; lia). congruence.
  - destruct (at_pos (i * rb + i') _ _) eqn:E3; [|ring]. exfalso. apply at_pos_spec in E3. cbn [fst snd] in E3. destruct E3 as [E3 E4].
    apply divmod_uniq in E3; [|lia|lia]. apply divmod_uniq in E4; [|lia|lia]. assert (at_pos i j (a, b, v) = true) by (apply at_pos_spec; cbn [fst snd]; lia). congruence.
Qed.
Lemma mget_no_ent m i j : s_wf m -> s_ent (coalesce m) = [] -> mget m i j = 0.
Proof. intros Hw H. rewrite <- mget_coalesce by exact Hw. unfold mget. rewrite H. apply eg_nil. Qed.
Lemma sparse_kron_ok m m' r : s_wf m -> s_wf m' -> sparse_kron m m' = Ok r ->
  s_rows r = (s_rows m * s_rows m')%nat /\ s_cols r = (s_cols m * s_cols m')%nat /\ s_wf r /\
  (forall i j i' j', (i' < s_rows m')%nat -> (j' < s_cols m')%nat -> mget r (i * s_rows m' + i') (j * s_cols m' + j') = mget m i j * mget m' i' j') /\
  snd (s_tag r) = snd (s_tag m) /\
  (s_ent (coalesce m) <> [] -> s_ent (coalesce m') <> [] -> fst (s_tag r) = promote (fst (s_tag m)) (fst (s_tag m'))) /\
  (s_ent (coalesce m) = [] \/ s_ent (coalesce m') = [] -> fst (s_tag r) = float32).
Proof.
  intros Hw Hw'. unfold sparse_kron. destruct (device_eqb _ _); [|discriminate]. cbn [negb].
  destruct (Nat.eqb_spec (List.length (s_ent (coalesce m))) 0) as [E|E].
  - cbn [orb]. intros H. apply sp_make_ok in H as [-> Hs]. apply length_zero_iff_nil in E. repeat split; auto; intros.
    + rewrite (mget_no_ent m i j Hw E). transitivity (kzero (c := K)); [|ring]. apply eg_zero. intros e [<-|[]] _. reflexivity.
    + contradiction.
  - destruct (Nat.eqb_spec (List.length (s_ent (coalesce m'))) 0) as [E'|E']; cbn [orb].
    + intros H. apply sp_make_ok in H as [-> Hs]. apply length_zero_iff_nil in E'. repeat split; auto; intros.
      * rewrite (mget_no_ent m' i' j' Hw' E'). transitivity (kzero (c := K)); [|ring]. apply eg_zero. intros e [<-|[]] _. reflexivity.
      * contradiction.
    + intros H. apply sp_make_ok in H as [-> Hs]. repeat split; auto; intros.
      * rewrite <- (mget_coalesce m) by exact Hw. rewrite <- (mget_coalesce m') by exact Hw'.
        apply (eg_kron (s_rows m') (s_cols m') (s_ent (coalesce m)) (s_ent (coalesce m'))); auto. apply (wf_coalesce m').
      * rewrite !length_zero_iff_nil in *. tauto.
Qed.
Lemma sparse_kron_run m m' : snd (s_tag m) = snd (s_tag m') -> s_wf m -> s_wf m' ->
  ((0 < s_rows m * s_rows m' /\ 0 < s_cols m * s_cols m')%nat \/ (s_ent (coalesce m) <> [] /\ s_ent (coalesce m') <> [])) -> exists r, sparse_kron m m' = Ok r.
Proof.
  intros Hd Hw Hw' Hs. unfold sparse_kron. rewrite Hd. assert (Hdd : device_eqb (snd (s_tag m')) (snd (s_tag m')) = true).
  { destruct (snd (s_tag m')); cbn; auto using Nat.eqb_refl. }
  rewrite Hdd. cbn [negb].
  destruct (Nat.eqb_spec (List.length (s_ent (coalesce m))) 0) as [E|E]; [|destruct (Nat.eqb_spec (List.length (s_ent (coalesce m'))) 0) as [E'|E']]; cbn [orb].
  - rewrite sp_make_run; [eauto|]. intros e [<-|[]]. apply length_zero_iff_nil in E. cbn [fst snd coalesce s_rows s_cols]. destruct Hs as [Hs|[Hs _]]; [lia|contradiction].
  - rewrite sp_make_run; [eauto|]. intros e [<-|[]]. apply length_zero_iff_nil in E'. cbn [fst snd coalesce s_rows s_cols]. destruct Hs as [Hs|[_ Hs]]; [lia|contradiction].
  - rewrite sp_make_run; [eauto|]. intros e He. apply in_flat_map in He as (e1 & H1 & He). apply in_map_iff in He as (e2 & <- & H2).
    pose proof (wf_coalesce m) as W1. pose proof (wf_coalesce m') as W2. unfold s_wf in W1, W2. rewrite Forall_forall in W1, W2.
    specialize (W1 _ H1). specialize (W2 _ H2). apply in_size_spec in W1, W2. cbn [fst snd coalesce s_rows s_cols] in *. nia.
Qed.

(** ** convolution matrices *)
Definition conv_start (mode : string) (L : nat) : nat :=
  if String.eqb mode "full" then 0 else if String.eqb mode "valid" then L - 1 else L / 2 + L mod 2 - 1.
Definition conv_outlen (mode : string) (L n : nat) : nat :=
  if String.eqb mode "full" then n + L - 1 else if String.eqb mode "valid" then n + 1 - L else n.
Definition conv_mode (mode : string) : Prop := mode = "full"%string \/ mode = "same"%string \/ mode = "sameshift"%string \/ mode = "valid"%string.
Lemma start_le L : (0 < L -> L / 2 + L mod 2 - 1 <= L - 1)%nat.
Proof. intros H. pose proof (Nat.div_mod L 2 ltac:(lia)). lia. Qed.
Lemma conv_rows_ok mode L n s e : (0 < L)%nat -> (0 < n)%nat -> conv_rows mode L n = Ok (s, e) -> conv_mode mode /\ s = conv_start mode L /\ (s <= L - 1)%nat /\
  ((mode = "valid"%string -> L <= n)%nat -> 
   (s + conv_outlen mode L n <= e)%nat /\ (s + conv_outlen mode L n <= n + L - 1)%nat /\ (forall r, r < e -> r <= n + L - 2 -> r - s < conv_outlen mode L n)%nat /\ (0 < conv_outlen mode L n)%nat /\ (s < e)%nat).
Proof.
  intros HL Hn. unfold conv_rows, conv_start, conv_outlen, conv_mode. pose proof (start_le L HL).
  destruct (String.eqb_spec mode "full") as [->|].
  { intros [= <- <-]. repeat split; auto; intros; lia. }
  destruct (String.eqb_spec mode "same") as [->|]; cbn [orb].
  { intros [= <- <-]. cbn [String.eqb Ascii.eqb Bool.eqb]. repeat split; auto; intros; lia. }
  destruct (String.eqb_spec mode "sameshift") as [->|]; cbn [orb].
  { intros [= <- <-]. cbn [String.eqb Ascii.eqb Bool.eqb]. repeat split; auto; intros; lia. }
  destruct (String.eqb_spec mode "valid") as [->|]; [|discriminate]. intros [= <- <-].
  split; [auto|]. split; [reflexivity|]. split; [lia|]. intros Hv. specialize (Hv eq_refl). repeat split; intros; lia.
Qed.
Definition conv_prod (L n start stop : nat) : list (nat * nat) :=
  flat_map (fun col => flat_map (fun row => if Nat.leb start (row + col) && Nat.ltb (row + col) stop then [(row, col)] else []) (seq 0 L)) (seq 0 n).
Lemma in_conv_prod L n s e row col : In (row, col) (conv_prod L n s e) <-> (row < L /\ col < n /\ s <= row + col < e)%nat.
Proof.
  unfold conv_prod. rewrite in_flat_map. split.
  - intros (c & Hc & H). apply in_flat_map in H as (r & Hr & H). destruct (Nat.leb_spec s (r + c)); [|destruct H]. destruct (Nat.ltb_spec (r + c) e); [|destruct H].
    destruct H as [[= -> ->]|[]]. apply in_seq in Hc, Hr. lia.
  - intros H. exists col. split; [apply in_seq; lia|]. apply in_flat_map. exists row. split; [apply in_seq; lia|].
    destruct (Nat.leb_spec s (row + col)); [|lia]. destruct (Nat.ltb_spec (row + col) e); [|lia]. left. reflexivity.
Qed.
Lemma eg_conv (filt : list K) n s e k c :
  ent_get (map (fun p => ((fst p + snd p - s)%nat, snd p, nth (fst p) filt 0)) (conv_prod (List.length filt) n s e)) k c =
  if Nat.ltb c n && Nat.ltb (k + s) e then zget filt (Z.of_nat k + Z.of_nat s - Z.of_nat c) else 0.
Proof.
  unfold ent_get, conv_prod. rewrite sumL_map, sumL_flat_map, sumL_seq.
  rewrite (sumf_ext n _ (fun col => sumf (List.length filt) (fun row => if Nat.leb s (row + col) && Nat.ltb (row + col) e then if Nat.eqb (row + col - s) k && Nat.eqb col c then nth row filt 0 else 0 else 0))).
  2:{ intros col _. rewrite sumL_flat_map, sumL_seq. apply sumf_ext. intros row _. destruct (_ && _); [|reflexivity]. cbn [sumL]. unfold at_pos. cbn [fst snd]. ring. }
  destruct (Nat.ltb_spec c n) as [Hc|Hc]; cbn [andb].
  - rewrite (sumf_single n c); [|exact Hc|].
    2:{ intros col _ Hne. apply sumf_zero. intros row _. destruct (Nat.eqb_spec col c); [congruence|]. rewrite andb_false_r. destruct (_ && _); reflexivity. }
    destruct (Nat.ltb_spec (k + s) e) as [He|He].
    + destruct (Z.ltb_spec (Z.of_nat k + Z.of_nat s - Z.of_nat c) 0) as [Hz|Hz].
      { rewrite zget_neg by exact Hz. apply sumf_zero. intros row Hr. destruct (Nat.leb_spec s (row + c)); [|reflexivity]. destruct (Nat.eqb_spec (row + c - s) k); [lia|]. destruct (Nat.ltb _ _); reflexivity. }
      replace (Z.of_nat k + Z.of_nat s - Z.of_nat c)%Z with (Z.of_nat (k + s - c)) by lia. rewrite zget_nat.
      destruct (Nat.lt_ge_cases (k + s - c) (List.length filt)) as [Hr|Hr].
      * rewrite (sumf_single _ (k + s - c)%nat); [|exact Hr|].
        2:{ intros row _ Hne. destruct (Nat.leb_spec s (row + c)); [|reflexivity]. destruct (Nat.ltb _ _); [|reflexivity]. destruct (Nat.eqb_spec (row + c - s) k); [lia|reflexivity]. }
        destruct (Nat.leb_spec s (k + s - c + c)); [|lia]. destruct (Nat.ltb_spec (k + s - c + c) e); [|lia]. cbn [andb].
        destruct (Nat.eqb_spec (k + s - c + c - s) k); [|lia]. rewrite Nat.eqb_refl. reflexivity.
      * rewrite nth_overflow by exact Hr. apply sumf_zero. intros row Hrow. destruct (Nat.leb_spec s (row + c)); [|reflexivity]. destruct (Nat.ltb _ _); [|reflexivity]. destruct (Nat.eqb_spec (row + c - s) k); [lia|reflexivity].
    + apply sumf_zero. intros row _. destruct (Nat.leb_spec s (row + c)); [|reflexivity]. destruct (Nat.ltb_spec (row + c) e); [|reflexivity]. destruct (Nat.eqb_spec (row + c - s) k); [lia|reflexivity].
  - apply sumf_zero. intros col Hcol. apply sumf_zero. intros row _. destruct (Nat.eqb_spec col c); [lia|]. rewrite andb_false_r. destruct (_ && _); reflexivity.
Qed.
Lemma construct_conv_matrix_ok g (filt : list K) n mode : filt <> [] -> (0 < n)%nat -> conv_mode mode -> (mode = "valid"%string -> (List.length filt <= n)%nat) ->
  exists r, construct_conv_matrix g filt n mode = Ok r /\ s_tag r = g /\ s_rows r = conv_outlen mode (List.length filt) n /\ s_cols r = n /\ s_wf r /\
  (forall k c, (k < s_rows r)%nat -> (c < n)%nat -> mget r k c = zget filt (Z.of_nat k + Z.of_nat (conv_start mode (List.length filt)) - Z.of_nat c)) /\
  (forall k c, (exists v, In ((k, c), v) (s_ent r)) <-> (k < s_rows r /\ c < n /\ c <= k + conv_start mode (List.length filt) < c + List.length filt)%nat).
Proof.
  intros Hf Hn Hm Hv. assert (HL : (0 < List.length filt)%nat) by (destruct filt; [congruence|cbn; lia]).
  assert (Hc : exists s e, conv_rows mode (List.length filt) n = Ok (s, e)).
  { unfold conv_rows. destruct Hm as [->|[->|[->| ->]]]; cbn; eauto. }
  destruct Hc as (s & e & Hc). destruct (conv_rows_ok mode _ n s e HL Hn Hc) as (_ & Hs & HsL & Ho). specialize (Ho Hv). destruct Ho as (H1 & H2 & H3 & H4 & H5).
  unfold construct_conv_matrix. rewrite Hc. cbn [rbind]. fold (conv_prod (List.length filt) n s e).
  set (o := conv_outlen mode (List.length filt) n) in *.
  assert (Hrows : max1 (map (fun e0 : nat * nat * K => fst (fst e0)) (map (fun p => ((fst p + snd p - s)%nat, snd p, nth (fst p) filt 0)) (conv_prod (List.length filt) n s e))) = o).
  { rewrite map_map. cbn [fst snd]. apply max1_eq.
    - intros i Hi. apply in_map_iff in Hi as ([row col] & <- & Hp). apply in_conv_prod in Hp. cbn [fst snd]. apply H3; lia.
    - right. apply in_map_iff. exists ((s + o - 1) - Nat.min (n - 1) (s + o - 1), Nat.min (n - 1) (s + o - 1))%nat. cbn [fst snd]. split; [lia|]. apply in_conv_prod. lia. }
  assert (Hcols : max1 (map (fun e0 : nat * nat * K => snd (fst e0)) (map (fun p => ((fst p + snd p - s)%nat, snd p, nth (fst p) filt 0)) (conv_prod (List.length filt) n s e))) = n).
  { rewrite map_map. cbn [fst snd]. apply max1_eq.
    - intros i Hi. apply in_map_iff in Hi as ([row col] & <- & Hp). apply in_conv_prod in Hp. cbn [fst snd]. lia.
    - right. apply in_map_iff. exists (s - (n - 1), n - 1)%nat. cbn [fst snd]. split; [reflexivity|]. apply in_conv_prod. assert (n - 1 < e)%nat; [|lia].
      unfold conv_rows in Hc. destruct Hm as [->|[->|[->| ->]]]; cbn -[Nat.div Nat.modulo] in Hc; injection Hc; intros; subst; unfold o, conv_outlen in *; cbn -[Nat.div Nat.modulo] in *; lia. }
  assert (Hne : conv_prod (List.length filt) n s e <> []).
  { intros E. assert (Hin : In (s - Nat.min s (n - 1), Nat.min s (n - 1))%nat (conv_prod (List.length filt) n s e)) by (apply in_conv_prod; lia). rewrite E in Hin. destruct Hin. }
  exists (sp_infer g (map (fun p => ((fst p + snd p - s)%nat, snd p, nth (fst p) filt 0)) (conv_prod (List.length filt) n s e))).
  split; [destruct (conv_prod _ n s e); [congruence|reflexivity]|]. split; [reflexivity|]. split; [exact Hrows|]. split; [exact Hcols|]. split; [apply wf_infer|]. split.
  - intros k c Hk Hcn. cbn [sp_infer s_rows] in Hk. rewrite Hrows in Hk. unfold mget. cbn [sp_infer s_ent]. rewrite eg_conv.
    destruct (Nat.ltb_spec c n); [|lia]. destruct (Nat.ltb_spec (k + s) e); [|lia]. cbn [andb]. rewrite Hs. reflexivity.
  - intros k c. cbn [sp_infer s_rows s_ent]. rewrite Hrows. split.
    + intros [v Hin]. apply in_map_iff in Hin as ([row col] & E & Hp). cbn [fst snd] in E. injection E as <- <- _. apply in_conv_prod in Hp. rewrite <- Hs. split; [apply H3; lia|]. lia.
    + rewrite <- Hs. intros (Hk & Hcn & Hr). exists (nth (k + s - c) filt 0). apply in_map_iff. exists (k + s - c, c)%nat. cbn [fst snd]. split; [|apply in_conv_prod; lia].
      f_equal. f_equal. lia.
Qed.

(** ** strided convolution matrices *)
Lemma arange_length s e st : (0 < st)%nat -> List.length (arange s e st) = ((e - s + st - 1) / st)%nat.
Proof. intros _. unfold arange. rewrite map_length, seq_length. reflexivity. Qed.
Lemma arange_nth s e st i : (i < List.length (arange s e st))%nat -> nth i (arange s e st) 0%nat = (s + i * st)%nat.
Proof. unfold arange. rewrite map_length, seq_length. intros H. rewrite nth_map_seq by exact H. reflexivity. Qed.
Lemma arange_lt s e st i : (0 < st)%nat -> In i (arange s e st) -> (i < e)%nat.
Proof.
  intros Hst H. unfold arange in H. apply in_map_iff in H as (k & <- & Hk). apply in_seq in Hk.
  assert (S k <= (e - s + st - 1) / st)%nat by lia. assert (st * S k <= e - s + st - 1)%nat.
  { etransitivity; [|apply (Nat.mul_div_le (e - s + st - 1) st); lia]. apply Nat.mul_le_mono_l. assumption. }
  nia.
Qed.
Lemma construct_strided_conv_matrix_ok g (filt : list K) n stride mode : filt <> [] -> (0 < n)%nat -> (0 < stride)%nat -> conv_mode mode -> (mode = "valid"%string -> (List.length filt <= n)%nat) ->
  let s0 := if String.eqb mode "sameshift" then 1%nat else 0%nat in
  exists r, construct_strided_conv_matrix g filt n stride mode = Ok r /\ s_tag r = g /\
  s_rows r = ((conv_outlen mode (List.length filt) n - s0 + stride - 1) / stride)%nat /\ s_cols r = n /\ s_wf r /\
  (forall k c, (k < s_rows r)%nat -> (c < n)%nat -> mget r k c = zget filt (Z.of_nat (s0 + k * stride) + Z.of_nat (conv_start mode (List.length filt)) - Z.of_nat c)) /\
  (forall k c, (exists v, In ((k, c), v) (s_ent r)) <-> (k < s_rows r /\ c < n /\ c <= s0 + k * stride + conv_start mode (List.length filt) < c + List.length filt)%nat).
Proof.
  intros Hf Hn Hst Hm Hv s0. destruct (construct_conv_matrix_ok g filt n mode Hf Hn Hm Hv) as (c & Hc & Ht & Hr & Hcc & Hw & Hg & Hs).
  unfold construct_strided_conv_matrix. rewrite Hc. cbn [rbind]. destruct (Nat.eqb_spec stride 0); [lia|]. fold s0.
  set (rows := arange s0 (s_rows c) stride). assert (Hin : forall i, In i rows -> (i < s_rows c)%nat) by (intros i; apply arange_lt; exact Hst).
  destruct (select_rows_run c rows Hin) as [r Er]. exists r. split; [exact Er|].
  destruct (select_rows_ok c rows r Er Hw) as (R1 & R2 & R3 & R4 & _ & R5).
  assert (HR : s_rows r = ((conv_outlen mode (List.length filt) n - s0 + stride - 1) / stride)%nat) by (rewrite R1; unfold rows; rewrite arange_length, Hr by exact Hst; reflexivity).
  split; [congruence|]. split; [exact HR|]. split; [congruence|]. split; [exact R4|]. split.
  - intros k c0 Hk Hc0. rewrite R1 in Hk. rewrite R5 by exact Hk. rewrite Hg by (auto; apply Hin, nth_In, Hk). unfold rows. rewrite arange_nth by exact Hk. reflexivity.
  - intros k c0. unfold select_rows in Er. rewrite sp_make_run in Er; [cbn [rbind] in Er|].
    2:{ intros e He. apply in_map_iff in He as ([p q] & <- & Hp). cbn [fst snd]. split; [apply in_combine_l, in_seq in Hp; lia|apply in_combine_r in Hp; auto]. }
    assert (Hsel : s_wf (mkS (s_tag c) (List.length rows) (s_rows c) (map (fun p => (fst p, snd p, kone (c := K))) (combine (seq 0 (List.length rows)) rows)))).
    { unfold s_wf. cbn [s_ent s_rows s_cols]. apply Forall_forall. intros e He. apply in_map_iff in He as ([p q] & <- & Hp). apply in_size_spec. cbn [fst snd]. split; [apply in_combine_l, in_seq in Hp; lia|apply in_combine_r in Hp; auto]. }
    rewrite (sp_mm_stored _ _ _ k c0 Er Hsel Hw). cbn [s_ent]. split.
    + intros (q & u & v & H1 & H2). assert (Hcs : exists v, In ((q, c0), v) (s_ent c)) by eauto. apply Hs in Hcs. apply in_map_iff in H1 as ([p q'] & E & Hp). cbn [fst snd] in E. injection E as -> -> _.
      assert (Hk : (k < List.length rows)%nat) by (apply in_combine_l, in_seq in Hp; lia).
      assert (Hq : q = nth k rows 0%nat).
      { clear - Hp. assert (G : forall s, In (s + k, q)%nat (combine (seq s (List.length rows)) rows) -> q = nth k rows 0%nat).
        { clear Hp. revert k. induction rows as [|a l IH]; intros k s H; [destruct H|]. cbn [List.length seq combine] in H. destruct H as [[= E1 E2]|H].
          - assert (k = 0)%nat by lia. subst k. subst. reflexivity.
          - destruct k as [|k]; [apply in_combine_l, in_seq in H; lia|]. cbn [nth]. apply (IH k (S s)). replace (S s + k)%nat with (s + S k)%nat by lia. exact H. }
        apply (G 0%nat Hp). }
      unfold rows in Hq. rewrite arange_nth in Hq by exact Hk. rewrite R1. split; [exact Hk|]. subst q. lia.
    + intros (Hk & Hc0 & Hr0). rewrite R1 in Hk. set (q := nth k rows 0%nat).
      assert (Hq : q = (s0 + k * stride)%nat) by (unfold q, rows; apply arange_nth; exact Hk).
      assert (Hqs : (q < s_rows c)%nat) by (apply Hin, nth_In, Hk).
      destruct (proj2 (Hs q c0)) as [v Hv']; [lia|]. exists q, 1, v. split; [|exact Hv'].
      apply in_map_iff. exists (k, q). split; [reflexivity|]. unfold q.
      assert (Hn1 : nth k (combine (seq 0 (List.length rows)) rows) (0, 0)%nat = (k, nth k rows 0%nat)) by (rewrite combine_nth by apply seq_length; rewrite seq_nth by exact Hk; reflexivity).
      rewrite <- Hn1. apply nth_In. rewrite combine_length, seq_length. lia.
Qed.

(** ** replacing a row *)
Lemma eg_diag (f : nat -> K) n i j : ent_get (map (fun i => (i, i, f i)) (seq 0 n)) i j = if Nat.ltb i n && Nat.eqb i j then f i else 0.
Proof.
  unfold ent_get. rewrite sumL_map, sumL_seq. unfold at_pos. cbn [fst snd]. destruct (Nat.ltb_spec i n) as [Hi|Hi]; cbn [andb].
  - rewrite (sumf_single n i); [|exact Hi|intros k _ Hne; destruct (Nat.eqb_spec k i); [congruence|reflexivity]]. rewrite Nat.eqb_refl. cbn [andb]. reflexivity.
  - apply sumf_zero. intros k Hk. destruct (Nat.eqb_spec k i); [lia|reflexivity].
Qed.
Lemma sparse_replace_row_ok m i row : s_wf m -> s_wf row -> s_rows row = 1%nat -> s_cols row = s_cols m -> s_rows m = s_cols m -> (i < s_rows m)%nat ->
  exists r, sparse_replace_row m i row = Ok r /\ s_tag r = s_tag m /\ s_rows r = s_rows m /\ s_cols r = s_cols m /\ s_wf r /\
  forall a b, mget r a b = if Nat.eqb a i then mget row 0 b else mget m a b.
Proof.
  intros Hw Hwr H1 Hc Hsq Hi. unfold sparse_replace_row. rewrite Hc, Nat.eqb_refl. cbn [negb]. destruct (Nat.ltb_spec i (s_rows m)); [|lia]. cbn [negb].
  rewrite sp_make_run; [cbn [rbind]|]. 2:{ intros e He. apply in_map_iff in He as (k & <- & Hk). apply in_seq in Hk. cbn [fst snd]. lia. }
  assert (Hwc : forall e, In e (s_ent (coalesce row)) -> fst (fst e) = 0%nat /\ (snd (fst e) < s_cols m)%nat).
  { intros e He. pose proof (wf_coalesce row) as W. unfold s_wf in W. rewrite Forall_forall in W. specialize (W e He). apply in_size_spec in W. cbn [coalesce s_rows s_cols] in W. lia. }
  rewrite sp_make_run; [cbn [rbind]|]. 2:{ intros e He. apply in_map_iff in He as (e' & <- & He'). specialize (Hwc e' He'). cbn [fst snd]. lia. }
  set (rem := mkS (s_tag m) (s_rows m) (s_cols m) (map (fun i0 => (i0, i0, if Nat.eqb i0 i then 0 else 1)) (seq 0 (s_rows m)))).
  assert (Hwrem : s_wf rem). { unfold s_wf, rem. cbn [s_ent s_rows s_cols]. apply Forall_forall. intros e He. apply in_map_iff in He as (k & <- & Hk). apply in_seq in Hk. apply in_size_spec. cbn [fst snd]. lia. }
  destruct (sp_mm_run rem (coalesce m)) as [p Ep]; [reflexivity|cbn; lia|]. rewrite Ep. cbn [rbind].
  destruct (sp_mm_ok _ _ _ Ep Hwrem (wf_coalesce m)) as (_ & P2 & P3 & P4 & P5 & P6). cbn [rem coalesce s_rows s_cols s_tag] in P2, P3, P4.
  rewrite sp_add_run by (cbn; congruence). eexists. split; [reflexivity|]. cbn [s_tag s_rows s_cols]. split; [exact P4|]. split; [exact P2|]. split; [exact P3|]. split.
  - unfold s_wf. cbn [s_ent s_rows s_cols]. apply Forall_app. split; [exact P5|]. apply Forall_forall. intros e He. apply in_map_iff in He as (e' & <- & He'). specialize (Hwc e' He').
    apply in_size_spec. cbn [fst snd]. lia.
  - intros a b. unfold mget at 1. cbn [s_ent]. rewrite eg_app. fold (mget p a b). rewrite P6.
    assert (Hrow : ent_get (map (fun e : nat * nat * K => ((fst (fst e) + i)%nat, snd (fst e), snd e)) (s_ent (coalesce row))) a b = if Nat.eqb a i then mget row 0 b else 0).
    { destruct (Nat.eqb_spec a i) as [->|Hne].
      - rewrite <- (mget_coalesce row) by exact Hwr. apply (eg_map_pos (s_ent (coalesce row)) (fun q => ((fst q + i)%nat, snd q)) 0%nat b).
        intros [x y]. cbn [fst snd]. split; [intros [= E ->]; f_equal; lia|intros [= -> ->]; reflexivity].
      - apply eg_zero. intros e He Hp. exfalso. apply in_map_iff in He as (e' & <- & He'). specialize (Hwc e' He'). apply at_pos_spec in Hp. cbn [fst snd] in Hp. lia. }
    rewrite Hrow. clear Hrow.
    assert (Hmm : sumf (s_cols rem) (fun k => mget rem a k * mget (coalesce m) k b) = if Nat.eqb a i then 0 else mget m a b).
    { unfold mget at 1. unfold rem at 2. cbn [s_ent]. destruct (Nat.lt_ge_cases a (s_rows m)) as [Ha|Ha].
      - rewrite (sumf_single _ a).
        + rewrite eg_diag, Nat.eqb_refl, mget_coalesce by exact Hw. destruct (Nat.ltb_spec a (s_rows m)); [|lia]. cbn [andb]. destruct (Nat.eqb a i); ring.
        + unfold rem. cbn [s_cols]. lia.
        + intros k _ Hne. rewrite eg_diag. destruct (Nat.eqb_spec a k); [congruence|]. rewrite andb_false_r. ring.
      - rewrite sumf_zero.
        + rewrite (mget_out m a b Hw) by lia. destruct (Nat.eqb a i); reflexivity.
        + intros k _. rewrite eg_diag. destruct (Nat.ltb_spec a (s_rows m)); [lia|]. cbn [andb]. ring. }
    rewrite Hmm. destruct (Nat.eqb a i); ring.
Qed.

(** ** identity extension *)
Lemma cat_identity_ok m N : s_wf m -> s_rows m = s_cols m -> (s_rows m <= N)%nat ->
  exists r, cat_sparse_identity_matrix m N = Ok r /\ s_tag r = s_tag m /\ s_rows r = N /\ s_cols r = N /\ s_wf r /\
  forall i j, (i < N)%nat -> (j < N)%nat -> mget r i j = if Nat.ltb i (s_rows m) || Nat.ltb j (s_rows m) then mget m i j else if Nat.eqb i j then 1 else 0.
Proof.
  intros Hw Hsq HN. unfold cat_sparse_identity_matrix. rewrite <- Hsq, Nat.eqb_refl. cbn [negb]. destruct (Nat.ltb_spec N (s_rows m)); [lia|].
  destruct (Nat.eqb_spec N (s_rows m)) as [->|Hne].
  - exists m. repeat split; auto. intros i j Hi Hj. destruct (Nat.ltb_spec i (s_rows m)); [reflexivity|lia].
  - set (l := s_ent (coalesce m) ++ map (fun i => (i, i, 1)) (seq (s_rows m) (N - s_rows m))).
    assert (Hb : forall e, In e l -> (fst (fst e) < N /\ snd (fst e) < N)%nat).
    { intros e He. apply in_app_or in He as [He|He].
      - pose proof (wf_coalesce m) as W. unfold s_wf in W. rewrite Forall_forall in W. specialize (W e He). apply in_size_spec in W. cbn [coalesce s_rows s_cols] in W. lia.
      - apply in_map_iff in He as (k & <- & Hk). apply in_seq in Hk. cbn [fst snd]. lia. }
    assert (Hlast : In ((N - 1)%nat, (N - 1)%nat, 1) l) by (apply in_or_app; right; apply in_map_iff; exists (N - 1)%nat; split; [reflexivity|apply in_seq; lia]).
    assert (HR : max1 (map (fun e : nat * nat * K => fst (fst e)) l) = N).
    { apply max1_eq; [intros i Hi; apply in_map_iff in Hi as (e & <- & He); apply Hb, He|]. right. exact (in_map (fun e : nat * nat * K => fst (fst e)) l _ Hlast). }
    assert (HC : max1 (map (fun e : nat * nat * K => snd (fst e)) l) = N).
    { apply max1_eq; [intros i Hi; apply in_map_iff in Hi as (e & <- & He); apply Hb, He|]. right. exact (in_map (fun e : nat * nat * K => snd (fst e)) l _ Hlast). }
    exists (sp_infer (s_tag m) l). split; [reflexivity|]. split; [reflexivity|]. split; [exact HR|]. split; [exact HC|]. split; [apply wf_infer|].
    intros i j Hi Hj. unfold mget at 1. cbn [sp_infer s_ent]. unfold l. rewrite eg_app. fold (mget (coalesce m) i j). rewrite mget_coalesce by exact Hw.
    assert (Hd : ent_get (map (fun i0 => (i0, i0, 1)) (seq (s_rows m) (N - s_rows m))) i j = if Nat.leb (s_rows m) i && Nat.eqb i j then kone (c := K) else 0).
    { destruct (Nat.leb_spec (s_rows m) i) as [Hle|Hlt]; cbn [andb].
      - replace (seq (s_rows m) (N - s_rows m)) with (map (fun k => k + s_rows m)%nat (seq 0 (N - s_rows m))).
        2:{ clear. generalize (N - s_rows m)%nat as n. intros n. generalize (s_rows m) as a. intros a. apply (nth_ext_len _ _ 0%nat); [rewrite map_length, !seq_length; reflexivity|].
            intros q Hq. rewrite map_length, seq_length in Hq. rewrite nth_map_seq by exact Hq. rewrite seq_nth by exact Hq. lia. }
        rewrite map_map. replace i with ((i - s_rows m) + s_rows m)%nat by lia. unfold ent_get. rewrite sumL_map, sumL_seq. unfold at_pos. cbn [fst snd].
        rewrite (sumf_single _ (i - s_rows m)%nat); [|lia|intros k _ Hk; destruct (Nat.eqb_spec (k + s_rows m) (i - s_rows m + s_rows m)); [lia|reflexivity]].
        rewrite Nat.eqb_refl. reflexivity.
      - apply eg_zero. intros e He Hp. exfalso. apply in_map_iff in He as (k & <- & Hk). apply in_seq in Hk. apply at_pos_spec in Hp. cbn [fst snd] in Hp. lia. }
    rewrite Hd. destruct (Nat.ltb_spec i (s_rows m)) as [H1|H1]; cbn [orb]; [destruct (Nat.leb_spec (s_rows m) i); [lia|]; cbn [andb]; ring|].
    destruct (Nat.leb_spec (s_rows m) i); [|lia]. cbn [andb]. rewrite (mget_out m i j Hw) by lia. destruct (Nat.ltb_spec j (s_rows m)); [destruct (Nat.eqb_spec i j); [lia|ring]|]. destruct (Nat.eqb i j); ring.
Qed.
End SC.
