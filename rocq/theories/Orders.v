(** Node orders of the packet trees (C31, C32). *)
From Coq Require Import List Arith ZArith Lia Bool String Ascii Permutation.
From Verif Require Import Base Tensor Packets SpecPk PacketFacts.
Import ListNotations.

(** ** itertools.product *)
Lemma product_length letters n : List.length (product_rep letters n) = List.length letters ^ n.
Proof.
  induction n as [|n IH]; [reflexivity|]. cbn [product_rep Nat.pow]. rewrite <- IH. generalize (product_rep letters n). intros P.
  clear. induction letters as [|c ls IHl]; [reflexivity|]. cbn [flat_map List.length Nat.mul]. rewrite app_length, map_length. f_equal. exact IHl.
Qed.
Lemma in_product letters n p : In p (product_rep letters n) <-> List.length p = n /\ word letters p.
Proof.
  revert p; induction n as [|n IH]; intros p; cbn [product_rep].
  - split; [intros [<-|[]]; split; [reflexivity|constructor]|]. intros [H _]. destruct p; [left; reflexivity|discriminate].
  - rewrite in_flat_map. split.
    + intros (c & Hc & Hp). apply in_map_iff in Hp as (q & <- & Hq). apply IH in Hq as [H1 H2]. split; [cbn; lia|constructor; assumption].
    + intros [H1 H2]. destruct p as [|c q]; [discriminate|]. exists c. split; [exact (Forall_inv H2)|]. apply in_map. apply IH. split; [cbn in H1; lia|exact (Forall_inv_tail H2)].
Qed.
Lemma nodup_app {A} (l l' : list A) : NoDup l -> NoDup l' -> (forall x, In x l -> ~ In x l') -> NoDup (l ++ l').
Proof.
  intros H H' Hd. induction H as [|a l Ha Hl IH]; [exact H'|]. cbn. constructor.
  - intros Hin. apply in_app_or in Hin as [Hin|Hin]; [contradiction|]. apply (Hd a (or_introl eq_refl) Hin).
  - apply IH. intros x Hx. apply Hd. right. exact Hx.
Qed.
Lemma nodup_product letters n : NoDup letters -> NoDup (product_rep letters n).
Proof.
  intros Hn. induction n as [|n IH]; cbn [product_rep]; [constructor; [intros []|constructor]|].
  set (P := product_rep letters n) in *. clearbody P. induction Hn as [|c ls Hc Hn IHl]; cbn; [constructor|].
  apply nodup_app; [|exact IHl|].
  - apply FinFun.Injective_map_NoDup; [intros x y H; congruence|exact IH].
  - intros x Hx Hin. apply in_map_iff in Hx as (q & <- & _). apply in_flat_map in Hin as (c' & Hc' & Hin). apply in_map_iff in Hin as (q' & E & _). congruence.
Qed.

Lemma digits_cons letters n c i : 0 < List.length letters -> c < List.length letters -> i < List.length letters ^ n ->
  digits letters (S n) (c * List.length letters ^ n + i) = nth c letters " "%char :: digits letters n i.
Proof.
  intros Hk Hc Hi. unfold digits. set (k := List.length letters) in *. cbn [seq map].
  assert (Hp : forall j, k ^ j <> 0) by (intros j; apply Nat.pow_nonzero; lia).
  f_equal.
  - f_equal. replace (S n - 1 - 0) with n by lia. rewrite Nat.div_add_l by auto. rewrite (Nat.div_small i) by exact Hi. rewrite Nat.add_0_r. apply Nat.mod_small. exact Hc.
  - rewrite <- seq_shift, map_map. apply map_ext_in. intros j Hj. apply in_seq in Hj. f_equal.
    replace (S n - 1 - S j) with (n - 1 - j) by lia. set (e := n - 1 - j).
    replace (k ^ n) with (k ^ S j * k ^ e) by (rewrite <- Nat.pow_add_r; f_equal; unfold e; lia).
    rewrite Nat.mul_assoc, Nat.div_add_l by auto. cbn [Nat.pow]. replace (c * (k * k ^ j) + i / k ^ e) with (i / k ^ e + (c * k ^ j) * k) by lia.
    apply Nat.mod_add. lia.
Qed.
Lemma seq_mul k m : seq 0 (k * m) = flat_map (fun c => map (fun i => c * m + i) (seq 0 m)) (seq 0 k).
Proof.
  induction k as [|k IH]; [reflexivity|]. rewrite Nat.mul_succ_l, seq_app, IH, seq_S, flat_map_app. cbn. rewrite app_nil_r. f_equal.
  rewrite <- (map_id (seq (k * m) m)). clear. generalize (k * m) at 1 2. intros s. revert s. 
  induction m as [|m IH]; intros s; [reflexivity|]. cbn. f_equal; [lia|]. rewrite IH, <- seq_shift, map_map. apply map_ext. intros i. lia.
Qed.
Lemma map_nth_seq {A} (l : list A) d : map (fun i => nth i l d) (seq 0 (List.length l)) = l.
Proof.
  induction l as [|a l IH]; [reflexivity|]. cbn [List.length seq map nth]. f_equal. rewrite <- seq_shift, map_map. exact IH.
Qed.
Theorem product_digits letters n : 0 < List.length letters ->
  product_rep letters n = map (digits letters n) (seq 0 (List.length letters ^ n)).
Proof.
  intros Hk. induction n as [|n IH]; [reflexivity|]. cbn [product_rep Nat.pow].
  rewrite seq_mul, !flat_map_concat_map, concat_map, map_map. f_equal.
  rewrite <- (map_nth_seq letters " "%char) at 1. rewrite map_map. apply map_ext_in. intros c Hc. apply in_seq in Hc. rewrite IH, !map_map. apply map_ext_in. intros i Hi. apply in_seq in Hi.
  symmetry. apply digits_cons; lia.
Qed.

(** ** the binary-reflected Gray code *)
Fixpoint reflected (x y : ascii) (n : nat) : list key :=
  match n with O => [[]] | S m => map (cons x) (reflected x y m) ++ map (cons y) (rev (reflected x y m)) end.
Lemma gray_loop_reflected x y n k : gray_loop n x y (reflected x y k) = reflected x y (k + n).
Proof.
  revert k; induction n as [|n IH]; intros k; [rewrite Nat.add_0_r; reflexivity|].
  cbn [gray_loop]. change (map (cons x) (reflected x y k) ++ map (cons y) (rev (reflected x y k))) with (reflected x y (S k)).
  rewrite IH. f_equal. lia.
Qed.
Lemma graycode_reflected n x y : graycode_order n x y = reflected x y n.
Proof.
  destruct n as [|n]; [reflexivity|]. cbn [graycode_order]. replace (S n - 1) with n by lia.
  change [[x]; [y]] with (reflected x y 1). rewrite gray_loop_reflected. reflexivity.
Qed.
Lemma gray_lt i n : i < 2 ^ n -> gray i < 2 ^ n.
Proof.
  intros Hi. destruct (Nat.eq_dec (gray i) 0) as [->|Hz]; [apply Nat.neq_0_lt_0, Nat.pow_nonzero; lia|].
  apply Nat.log2_lt_pow2; [lia|]. assert (Hn : n <> 0) by (intros ->; cbn in Hi; assert (i = 0) by lia; subst; apply Hz; reflexivity).
  eapply Nat.le_lt_trans; [apply Nat.log2_lxor|]. assert (0 < i) by (destruct i; [exfalso; apply Hz; reflexivity|lia]).
  assert (Nat.log2 i < n) by (apply Nat.log2_lt_pow2; lia).
  assert (Nat.log2 (i / 2) <= Nat.log2 i) by (apply Nat.log2_le_mono, Nat.div_le_upper_bound; lia). lia.
Qed.
Lemma bit_above i n k : i < 2 ^ n -> n <= k -> Nat.testbit i k = false.
Proof.
  intros Hi Hk. destruct (Nat.eq_dec i 0) as [->|Hz]; [apply Nat.bits_0|]. apply Nat.bits_above_log2.
  assert (Nat.log2 i < n) by (apply Nat.log2_lt_pow2; lia). lia.
Qed.
Lemma half_bit i k : Nat.testbit (i / 2) k = Nat.testbit i (S k).
Proof. change 2 with (2 ^ 1). rewrite <- Nat.shiftr_div_pow2, Nat.shiftr_spec by lia. f_equal. lia. Qed.
Lemma gray_bit i k : Nat.testbit (gray i) k = xorb (Nat.testbit i k) (Nat.testbit i (S k)).
Proof. unfold gray. rewrite Nat.lxor_spec, half_bit. reflexivity. Qed.
Lemma add_top_bit i n k : i < 2 ^ n -> Nat.testbit (2 ^ n + i) k = xorb (Nat.testbit i k) (Nat.eqb n k).
Proof.
  intros Hi. rewrite Nat.add_nocarry_lxor.
  - rewrite Nat.lxor_spec, Nat.pow2_bits_eqb. apply xorb_comm.
  - apply Nat.bits_inj. intros j. rewrite Nat.land_spec, Nat.pow2_bits_eqb, Nat.bits_0. destruct (Nat.eqb_spec n j) as [<-|]; [|reflexivity].
    rewrite (bit_above i n n) by lia. reflexivity.
Qed.
Lemma compl_bit j n k : j < 2 ^ n -> Nat.testbit (2 ^ n - 1 - j) k = xorb (Nat.testbit j k) (Nat.ltb k n).
Proof.
  intros Hj. replace (2 ^ n - 1 - j) with (Nat.lnot j n).
  - destruct (Nat.ltb_spec k n) as [H|H]; [rewrite Nat.lnot_spec_low by exact H|rewrite Nat.lnot_spec_high by exact H]; destruct (Nat.testbit j k); reflexivity.
  - destruct (Nat.eq_dec j 0) as [->|Hz].
    + unfold Nat.lnot. rewrite Nat.lxor_0_l, Nat.ones_equiv. lia.
    + rewrite Nat.lnot_sub_low; [rewrite Nat.ones_equiv; lia|]. apply Nat.log2_lt_pow2; lia.
Qed.
Lemma gray_reflect n j : j < 2 ^ n -> gray (2 ^ n + j) = 2 ^ n + gray (2 ^ n - 1 - j).
Proof.
  intros Hj. apply Nat.bits_inj. intros k.
  rewrite gray_bit, !add_top_bit by (try apply gray_lt; lia). rewrite gray_bit, !compl_bit by exact Hj.
  destruct (Nat.eqb_spec n k) as [<-|Hk].
  - rewrite (bit_above j n n), (bit_above j n (S n)) by lia. destruct (Nat.ltb_spec n n); [lia|]. destruct (Nat.ltb_spec (S n) n); [lia|].
    destruct (Nat.eqb_spec n (S n)); [lia|reflexivity].
  - destruct (Nat.eqb_spec n (S k)) as [E|E]; destruct (Nat.ltb_spec k n); destruct (Nat.ltb_spec (S k) n); try lia;
      destruct (Nat.testbit j k), (Nat.testbit j (S k)); reflexivity.
Qed.
Lemma rev_seq m : rev (seq 0 m) = map (fun j => m - 1 - j) (seq 0 m).
Proof.
  induction m as [|m IH]; [reflexivity|]. rewrite seq_S at 1. rewrite rev_app_distr. cbn [rev app seq map].
  replace (S m - 1 - 0) with m by lia. f_equal. rewrite IH, <- seq_shift, map_map. apply map_ext. intros i. lia.
Qed.
Lemma reflected_gray x y n : reflected x y n = map (fun i => digits [x; y] n (gray i)) (seq 0 (2 ^ n)).
Proof.
  induction n as [|n IH]; [reflexivity|]. cbn [reflected]. rewrite IH, map_map, <- map_rev, rev_seq, !map_map.
  replace (2 ^ S n) with (2 ^ n + 2 ^ n) by (cbn; lia). rewrite seq_app, map_app. f_equal.
  - apply map_ext_in. intros i Hi. apply in_seq in Hi.
    symmetry. apply (digits_cons [x; y] n 0 (gray i)); cbn [List.length]; [lia|lia|]. apply gray_lt. lia.
  - rewrite Nat.add_0_l. assert (E : forall s m, seq s m = map (fun j => s + j) (seq 0 m)).
    { intros s m. revert s. induction m as [|m IHm]; intros s; [reflexivity|]. cbn [seq map]. f_equal; [lia|]. rewrite IHm, <- (seq_shift m 0), map_map. apply map_ext. intros; lia. }
    rewrite (E (2 ^ n)), map_map. apply map_ext_in. intros j Hj. apply in_seq in Hj.
    rewrite gray_reflect by lia. replace (2 ^ n + gray (2 ^ n - 1 - j)) with (1 * 2 ^ n + gray (2 ^ n - 1 - j)) by lia.
    symmetry. apply (digits_cons [x; y] n 1 (gray (2 ^ n - 1 - j))); cbn [List.length]; [lia|lia|]. apply gray_lt. lia.
Qed.
Lemma in_reflected x y n p : In p (reflected x y n) <-> List.length p = n /\ word [x; y] p.
Proof.
  revert p; induction n as [|n IH]; intros p; cbn [reflected].
  - split; [intros [<-|[]]; split; [reflexivity|constructor]|]. intros [H _]. destruct p; [left; reflexivity|discriminate].
  - rewrite in_app_iff, !in_map_iff. split.
    + intros [(q & <- & Hq)|(q & <- & Hq)]; [|apply in_rev in Hq]; apply IH in Hq as [H1 H2]; (split; [cbn; lia|constructor; [cbn; tauto|assumption]]).
    + intros [H1 H2]. destruct p as [|c q]; [discriminate|]. pose proof (Forall_inv H2) as [<-|[<-|[]]];
        [left|right]; exists q; (split; [reflexivity|]); [|apply in_rev; rewrite rev_involutive]; apply IH; (split; [cbn in H1; lia|exact (Forall_inv_tail H2)]).
Qed.
Lemma nodup_reflected x y n : x <> y -> NoDup (reflected x y n).
Proof.
  intros Hxy. induction n as [|n IH]; cbn [reflected]; [constructor; [intros []|constructor]|].
  apply nodup_app; try (apply FinFun.Injective_map_NoDup; [intros p q H; congruence|]); [exact IH|apply NoDup_rev; exact IH|].
  intros p Hp Hq. apply in_map_iff in Hp as (u & <- & _). apply in_map_iff in Hq as (v & E & _). congruence.
Qed.
(** consecutive elements satisfy R *)
Inductive chain {A} (R : A -> A -> Prop) : list A -> Prop :=
| chain_nil : chain R [] | chain_one a : chain R [a]
| chain_cons a b l : R a b -> chain R (b :: l) -> chain R (a :: b :: l).
Lemma chain_nth {A} (R : A -> A -> Prop) l d : chain R l -> forall i, S i < List.length l -> R (nth i l d) (nth (S i) l d).
Proof.
  induction 1 as [|a|a b l Hab H IH]; intros i Hi; cbn in Hi; [lia|lia|]. destruct i as [|i]; [exact Hab|]. apply (IH i). cbn. lia.
Qed.
Lemma chain_map {A B} (f : A -> B) (R : A -> A -> Prop) (S : B -> B -> Prop) l : (forall a b, R a b -> S (f a) (f b)) -> chain R l -> chain S (map f l).
Proof. intros H. induction 1; cbn; [constructor|constructor|]. constructor; [apply H; assumption|assumption]. Qed.
Lemma chain_app {A} (R : A -> A -> Prop) l a b l' : chain R (l ++ [a]) -> R a b -> chain R (b :: l') -> chain R ((l ++ [a]) ++ b :: l').
Proof.
  intros H Hab H'. induction l as [|c l IH]; cbn in *; [constructor; assumption|].
  destruct l as [|e l]; cbn in *.
  - inversion H; subst. constructor; [assumption|]. constructor; assumption.
  - inversion H; subst. constructor; [assumption|]. apply IH. assumption.
Qed.
Lemma chain_rev {A} (R : A -> A -> Prop) l : (forall a b, R a b -> R b a) -> chain R l -> chain R (rev l).
Proof.
  intros Hs. induction 1 as [|a|a b l Hab H IH]; [constructor|constructor|]. cbn [rev] in *. 
  apply chain_app; [exact IH|apply Hs; exact Hab|constructor].
Qed.
Lemma olapart_sym p q : one_letter_apart p q -> one_letter_apart q p.
Proof. intros (u & c & c' & v & -> & -> & H). exists u, c', c, v. repeat split; congruence. Qed.
Lemma chain_reflected x y n : x <> y -> chain one_letter_apart (reflected x y n).
Proof.
  intros Hxy. induction n as [|n IH]; cbn [reflected]; [constructor|].
  assert (Hc : forall z l, chain one_letter_apart l -> chain one_letter_apart (map (cons z) l)).
  { intros z l. apply chain_map. intros p q (u & c & c' & v & -> & -> & H). exists (z :: u), c, c', v. repeat split; exact H. }
  assert (H1 := Hc x _ IH). assert (H2 := Hc y _ (chain_rev _ _ olapart_sym IH)).
  destruct (rev (reflected x y n)) as [|p l] eqn:E; cbn [map] in *.
  - rewrite app_nil_r. exact H1.
  - apply (f_equal (@rev key)) in E. rewrite rev_involutive in E. cbn [rev] in E. rewrite E in *. rewrite map_app in *. cbn [map] in *.
    apply chain_app; [exact H1| |rewrite rev_app_distr, rev_involutive in H2; exact H2]. exists [], x, y, p. repeat split. exact Hxy.
Qed.

(** ** the 2d grid *)
Section Grid.
Let lh := ["l"; "h"]%char.
Lemma expand_letter2 r c : In r lh -> In c lh -> expand_letter (letter2 r c) = (r, c).
Proof. intros [<-|[<-|[]]] [<-|[<-|[]]]; reflexivity. Qed.
Lemma letter2_in r c : In (letter2 r c) ["a"; "h"; "v"; "d"]%char.
Proof. unfold letter2. destruct (Ascii.eqb r "h"), (Ascii.eqb c "h"); cbn; tauto. Qed.
Lemma expand_path2 row : forall col, word lh row -> word lh col -> List.length col = List.length row -> expand_2d_path (path2 row col) = (row, col).
Proof.
  unfold expand_2d_path. induction row as [|r row IH]; intros [|c col] Hr Hc Hl; try discriminate; [reflexivity|].
  cbn [path2 map]. rewrite (expand_letter2 r c (Forall_inv Hr) (Forall_inv Hc)). cbn [fst snd].
  specialize (IH col (Forall_inv_tail Hr) (Forall_inv_tail Hc) ltac:(cbn in Hl; lia)). injection IH as E1 E2. rewrite E1, E2. reflexivity.
Qed.
Lemma path2_word row : forall col, word ["a"; "h"; "v"; "d"]%char (path2 row col).
Proof. induction row as [|r row IH]; intros [|c col]; try constructor; [apply letter2_in|apply IH]. Qed.
Lemma path2_length row : forall col, List.length col = List.length row -> List.length (path2 row col) = List.length row.
Proof. induction row as [|r row IH]; intros [|c col] H; try discriminate; [reflexivity|]. cbn in *. f_equal. apply IH. lia. Qed.
Lemma path2_expand p : word ["a"; "h"; "v"; "d"]%char p -> path2 (fst (expand_2d_path p)) (snd (expand_2d_path p)) = p /\
  word lh (fst (expand_2d_path p)) /\ word lh (snd (expand_2d_path p)).
Proof.
  induction p as [|c p IH]; intros H; [repeat split; constructor|].
  destruct (IH (Forall_inv_tail H)) as (E & H1 & H2). unfold expand_2d_path in *. cbn [map fst snd path2] in *.
  rewrite E. split; [f_equal; pose proof (Forall_inv H) as [<-|[<-|[<-|[<-|[]]]]]; reflexivity|].
  split; (constructor; [|assumption]); pose proof (Forall_inv H) as [<-|[<-|[<-|[<-|[]]]]]; cbn; tauto.
Qed.
Definition lookup2 (d : kdict (kdict key)) (r c : key) : option key := match kget d r with Some i => kget i c | None => None end.
Definition nd_step (d : kdict (kdict key)) (node : key) : kdict (kdict key) :=
  let '(row, col) := expand_2d_path node in
    let inner := match kget d row with Some i => i | None => [] end in
    kset d row (kset inner col node).
Lemma lookup_step d x r c : lookup2 (nd_step d x) r c =
  if key_eqb (fst (expand_2d_path x)) r && key_eqb (snd (expand_2d_path x)) c then Some x else lookup2 d r c.
Proof.
  unfold nd_step, lookup2. destruct (expand_2d_path x) as [row col]. cbn [fst snd]. rewrite kget_kset.
  destruct (key_eqb_spec row r) as [<-|Hr]; cbn [andb]; [|reflexivity]. rewrite kget_kset. destruct (key_eqb col c); [reflexivity|].
  destruct (kget d row); reflexivity.
Qed.
Lemma lookup_dict nodes r c node : (forall p q, In p nodes -> In q nodes -> expand_2d_path p = expand_2d_path q -> p = q) ->
  In node nodes -> expand_2d_path node = (r, c) -> lookup2 (nodes_dict nodes) r c = Some node.
Proof.
  unfold nodes_dict. change (fold_left _ nodes []) with (fold_left nd_step nodes []). revert node. induction nodes as [|x nodes IH] using rev_ind; intros node Hinj Hin E; [destruct Hin|].
  rewrite fold_left_app. cbn [fold_left]. rewrite lookup_step.
  destruct (key_eqb_spec (fst (expand_2d_path x)) r) as [E1|E1]; destruct (key_eqb_spec (snd (expand_2d_path x)) c) as [E2|E2]; cbn [andb].
  - f_equal. apply Hinj; [apply in_or_app; right; left; reflexivity|exact Hin|]. rewrite E. rewrite <- E1, <- E2. destruct (expand_2d_path x); reflexivity.
  - apply in_app_or in Hin as [Hin|[->|[]]]; [|rewrite E in *; cbn in *; congruence]. apply IH; [|exact Hin|exact E]. intros p q Hp Hq. apply Hinj; apply in_or_app; left; assumption.
  - apply in_app_or in Hin as [Hin|[->|[]]]; [|rewrite E in *; cbn in *; congruence]. apply IH; [|exact Hin|exact E]. intros p q Hp Hq. apply Hinj; apply in_or_app; left; assumption.
  - apply in_app_or in Hin as [Hin|[->|[]]]; [|rewrite E in *; cbn in *; congruence]. apply IH; [|exact Hin|exact E]. intros p q Hp Hq. apply Hinj; apply in_or_app; left; assumption.
Qed.
Lemma pick_all {A} (d : kdict A) order f : (forall p, In p order -> kget d p = Some (f p)) -> pick d order = map f order.
Proof.
  unfold pick. induction order as [|p order IH]; intros H; [reflexivity|]. cbn [flat_map map]. rewrite (H p (or_introl eq_refl)). cbn. f_equal.
  apply IH. intros q Hq. apply H. right. exact Hq.
Qed.
Lemma pick_map {A B} (d : kdict A) (f : A -> B) g order : (forall p, In p order -> exists v, kget d p = Some v /\ f v = g p) -> map f (pick d order) = map g order.
Proof.
  unfold pick. induction order as [|p order IH]; intros H; [reflexivity|]. cbn [flat_map map]. destruct (H p (or_introl eq_refl)) as (v & E & Ev). rewrite E. cbn. f_equal; [exact Ev|].
  apply IH. intros q Hq. apply H. right. exact Hq.
Qed.
Lemma freq_order2_grid n : 1 <= n -> freq_order2 n = map (fun row => map (path2 row) (reflected "l" "h" n)) (reflected "l" "h" n).
Proof.
  intros Hn. unfold freq_order2. assert (EG : graycode_order2 n = reflected "l" "h" n).
  { unfold graycode_order2. change [["l"%char]; ["h"%char]] with (reflected "l" "h" 1). rewrite gray_loop_reflected. f_equal. lia. }
  rewrite EG. set (G := reflected "l" "h" n).
  assert (HL : forall r c, In r G -> In c G -> lookup2 (nodes_dict (natural_order2 n)) r c = Some (path2 r c)).
  { intros r c Hr Hc. apply in_reflected in Hr as [Hr1 Hr2], Hc as [Hc1 Hc2]. apply lookup_dict.
    - intros p q Hp Hq E. apply in_product in Hp as [_ Hp], Hq as [_ Hq]. rewrite <- (proj1 (path2_expand p Hp)), <- (proj1 (path2_expand q Hq)), E. reflexivity.
    - apply in_product. rewrite path2_length by congruence. split; [exact Hr1|apply path2_word].
    - apply expand_path2; [exact Hr2|exact Hc2|congruence]. }
  apply pick_map. intros r Hr. unfold lookup2 in HL.
  destruct (kget (nodes_dict (natural_order2 n)) r) as [i|] eqn:E.
  - exists i. split; [reflexivity|]. apply pick_all. intros c Hc. specialize (HL r c Hr Hc). rewrite E in HL. exact HL.
  - specialize (HL r r Hr Hr). rewrite E in HL. discriminate.
Qed.
End Grid.

(** ** C31 *)
Theorem C31_orders_1d (l : nat) : exists natural freq,
  get_level1 l "natural" = Ok natural /\ get_level1 l "freq" = Ok freq /\
  (** every path once, in lexicographic order *)
  (NoDup natural /\ forall p, In p natural <-> List.length p = l /\ word ["a"; "d"]%char p) /\
  natural = map (fun i => digits ["a"; "d"]%char l i) (seq 0 (2 ^ l)) /\
  (** the frequency order visits position i at the Gray code of i *)
  Permutation natural freq /\
  freq = map (fun i => digits ["a"; "d"]%char l (gray i)) (seq 0 (2 ^ l)) /\
  forall i, S i < 2 ^ l -> one_letter_apart (nth i freq []) (nth (S i) freq []).
Proof.
  exists (product_rep ["a"; "d"]%char l), (reflected "a" "d" l).
  assert (Hnd : NoDup ["a"; "d"]%char) by (repeat constructor; cbn; intros H; decompose [or] H; try discriminate; contradiction).
  assert (Hl : List.length (reflected "a" "d" l) = 2 ^ l) by (rewrite reflected_gray, map_length, seq_length; reflexivity).
  repeat split.
  - unfold get_level1. change (String.eqb "freq" "freq") with true. cbn match. f_equal. apply graycode_reflected.
  - apply nodup_product. exact Hnd.
  - apply in_product in H. apply H.
  - apply in_product in H. apply H.
  - intros H. apply in_product. exact H.
  - apply (product_digits ["a"; "d"]%char). cbn. lia.
  - apply NoDup_Permutation; [apply nodup_product; exact Hnd|apply nodup_reflected; discriminate|]. intros p. rewrite in_product, in_reflected. tauto.
  - apply reflected_gray.
  - intros i Hi. apply chain_nth; [apply chain_reflected; discriminate|lia].
Qed.
Theorem C31_unknown_order (l : nat) (order : string) : order <> "natural"%string -> order <> "freq"%string -> get_level1 l order = Raise ValueError.
Proof. intros H1 H2. unfold get_level1. rewrite (proj2 (String.eqb_neq _ _) H2), (proj2 (String.eqb_neq _ _) H1). reflexivity. Qed.
Example C31_example : get_level1 2 "freq" = Ok [ks "aa"; ks "ad"; ks "dd"; ks "da"].
Proof. reflexivity. Qed.

(** ** C32 *)
Theorem C32_natural_2d (l : nat) : exists natural, get_level2 l "natural" = Ok (inl natural) /\
  NoDup natural /\ (forall p, In p natural <-> List.length p = l /\ word ["a"; "h"; "v"; "d"]%char p) /\
  natural = map (fun i => digits ["a"; "h"; "v"; "d"]%char l i) (seq 0 (4 ^ l)).
Proof.
  exists (natural_order2 l). repeat split.
  - apply nodup_product. repeat constructor; cbn; intros H; decompose [or] H; try discriminate; contradiction.
  - apply in_product in H. apply H.
  - apply in_product in H. apply H.
  - intros H. apply in_product. exact H.
  - apply (product_digits ["a"; "h"; "v"; "d"]%char). cbn. lia.
Qed.
Lemma nodup_concat {A B} (F : A -> list B) l : NoDup l -> (forall a, In a l -> NoDup (F a)) ->
  (forall a b x, In a l -> In b l -> In x (F a) -> In x (F b) -> a = b) -> NoDup (List.concat (map F l)).
Proof.
  induction 1 as [|a l Ha Hl IH]; intros HF Hd; cbn [map List.concat]; [constructor|]. apply nodup_app.
  - apply HF. left. reflexivity.
  - apply IH; [intros b Hb; apply HF; right; exact Hb|]. intros b c x Hb Hc. apply Hd; right; assumption.
  - intros x Hx Hin. apply in_concat in Hin as (lx & Hlx & Hx'). apply in_map_iff in Hlx as (b & <- & Hb).
    assert (a = b) by (apply (Hd a b x); [left; reflexivity|right; exact Hb|exact Hx|exact Hx']). subst. contradiction.
Qed.
Lemma nodup_map_in {A B} (F : A -> B) l : NoDup l -> (forall a b, In a l -> In b l -> F a = F b -> a = b) -> NoDup (map F l).
Proof.
  induction 1 as [|a l Ha Hl IH]; intros HF; cbn; [constructor|]. constructor.
  - intros H. apply in_map_iff in H as (b & E & Hb). assert (b = a) by (apply HF; [right; exact Hb|left; reflexivity|exact E]). subst. contradiction.
  - apply IH. intros b c Hb Hc. apply HF; right; assumption.
Qed.
Theorem C32_freq_2d (l : nat) : 1 <= l -> exists grid, get_level2 l "freq" = Ok (inr grid) /\
  (** 2^l rows of 2^l nodes; row i and column j carry the Gray codes of i and j as filter words *)
  grid = map (fun i => map (fun j => path2 (digits ["l"; "h"]%char l (gray i)) (digits ["l"; "h"]%char l (gray j))) (seq 0 (2 ^ l))) (seq 0 (2 ^ l)) /\
  (** it arranges exactly the nodes of the level *)
  Permutation (List.concat grid) (natural_order2 l).
Proof.
  intros Hl. exists (freq_order2 l). split; [reflexivity|]. rewrite freq_order2_grid by exact Hl. split.
  - rewrite reflected_gray, map_map. apply map_ext. intros i. rewrite map_map. reflexivity.
  - assert (Hin : forall p, In p (reflected "l" "h" l) -> List.length p = l /\ word ["l"; "h"]%char p) by (intros p; apply in_reflected).
    assert (Hinj : forall r c r' c', In r (reflected "l" "h" l) -> In c (reflected "l" "h" l) -> In r' (reflected "l" "h" l) -> In c' (reflected "l" "h" l) ->
      path2 r c = path2 r' c' -> r = r' /\ c = c').
    { intros r c r' c' H1 H2 H3 H4 E. apply Hin in H1, H2, H3, H4.
      assert (E2 : (r, c) = (r', c')); [|injection E2; auto].
      transitivity (expand_2d_path (path2 r c)); [symmetry|rewrite E]; apply expand_path2; try tauto; destruct H1, H2, H3, H4; congruence. }
    apply NoDup_Permutation.
    + apply nodup_concat.
      * apply nodup_reflected. discriminate.
      * intros r Hr. assert (HN : NoDup (reflected "l" "h" l)) by (apply nodup_reflected; discriminate).
        apply nodup_map_in; [exact HN|]. intros c c' Hc Hc' E. apply (Hinj r c r c'); assumption.
      * intros r r' x Hr Hr' H1 H2. apply in_map_iff in H1 as (c & <- & Hc), H2 as (c' & E & Hc'). destruct (Hinj r' c' r c) as [-> _]; auto.
    + apply nodup_product. repeat constructor; cbn; intros H; decompose [or] H; try discriminate; contradiction.
    + intros p. unfold natural_order2. rewrite in_product, in_concat. split.
      * intros (lx & Hlx & Hp). apply in_map_iff in Hlx as (r & <- & Hr). apply in_map_iff in Hp as (c & <- & Hc). apply Hin in Hr, Hc.
        destruct Hr, Hc. rewrite path2_length by congruence. split; [assumption|apply path2_word].
      * intros [H1 H2]. destruct (path2_expand p H2) as (E & Hr & Hc). exists (map (path2 (fst (expand_2d_path p))) (reflected "l" "h" l)). split.
        -- apply in_map_iff. exists (fst (expand_2d_path p)). split; [reflexivity|]. apply in_reflected. split; [cbn; rewrite map_length; exact H1|exact Hr].
        -- rewrite <- E at 1. apply in_map. apply in_reflected. split; [cbn; rewrite map_length; exact H1|exact Hc].
Qed.
(** level 0: the natural order has the one node "", the frequency grid is empty *)
Theorem C32_level_zero_refuted : get_level2 0 "natural" = Ok (inl [[]]) /\ get_level2 0 "freq" = Ok (inr []).
Proof. split; reflexivity. Qed.
Theorem C32_unknown_order (l : nat) (order : string) : order <> "natural"%string -> order <> "freq"%string -> get_level2 l order = Raise ValueError.
Proof. intros H1 H2. unfold get_level2. rewrite (proj2 (String.eqb_neq _ _) H2), (proj2 (String.eqb_neq _ _) H1). reflexivity. Qed.
Example C32_example : get_level2 1 "freq" = Ok (inr [[ks "a"; ks "v"]; [ks "h"; ks "d"]]).
Proof. reflexivity. Qed.

(** the traversal orders of reconstruct *)
Lemma order_ok1 l : NoDup (graycode_order l "a" "d") /\ forall p, In p (graycode_order l "a" "d") <-> List.length p = l /\ word ["a"; "d"]%char p.
Proof. rewrite graycode_reflected. split; [apply nodup_reflected; discriminate|apply in_reflected]. Qed.
Lemma order_ok2 l : NoDup (natural_order2 l) /\ forall p, In p (natural_order2 l) <-> List.length p = l /\ word ["a"; "h"; "v"; "d"]%char p.
Proof. split; [apply nodup_product; repeat constructor; cbn; intros H; decompose [or] H; try discriminate; contradiction|apply in_product]. Qed.
