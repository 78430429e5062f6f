(** C77: what reading a node does to an arbitrary packet object (nodes assigned or deleted by hand included). *)
From Coq Require Import List Arith ZArith Lia Bool String Ascii.
From Verif Require Import Base Tensor Util Spec Packets SpecPk PacketFacts Conv1 Conv2 Wave1 Sep PropsPk.
Import ListNotations.

Section Rd.
Context {K : CRing} (B : backend K).
Hypothesis Hn : NoDup (be_letters B).
Variables (Inv : be_st B -> Prop) (D : tensor K -> Prop) (f : tensor K -> result (list (tensor K))).
Hypothesis dec_pure : forall b t, Inv b -> D t -> Inv (fst (be_dec B b t)) /\ snd (be_dec B b t) = f t.
Hypothesis dec_children : forall t ch, D t -> f t = Ok ch -> List.length ch = List.length (be_letters B) /\ Forall D ch.
Notation node := (node_at f (be_letters B)).

(** the node q = r ++ t is read; r is its longest prefix that is stored, with value v *)
Lemma read_effect (s : packet B) m r v : p_max s = Some m -> Inv (p_be s) -> kget (p_data s) r = Some v -> D v -> forall t : key,
  (forall t1 t2, t = t1 ++ t2 -> t1 <> [] -> kget (p_data s) (r ++ t1) = None) -> (t <> [] -> (Z.of_nat (List.length (r ++ t)) <= m)%Z) ->
  let s' := fst (pk_get B s (r ++ t)) in
  snd (pk_get B s (r ++ t)) = node v t /\ p_max s' = Some m /\ Inv (p_be s') /\
  (word (be_letters B) t ->
    (forall t1 c1 t2 c u, t = t1 ++ c1 :: t2 -> node v (t1 ++ [c]) = Ok u -> kget (p_data s') (r ++ t1 ++ [c]) = Some u)) /\
  (forall k, (forall t1 c1 t2 c u, t = t1 ++ c1 :: t2 -> node v (t1 ++ [c]) = Ok u -> k <> r ++ t1 ++ [c]) -> kget (p_data s') k = kget (p_data s) k) /\
  (~ word (be_letters B) t -> s' = s).
Proof using Hn dec_pure dec_children.
  intros Hm Hi Hr Hv. induction t as [|t c0 IH] using key_ind_last; intros Hno Hlen; cbv zeta.
  - rewrite app_nil_r, (pk_get_present B s r m v Hm Hr). cbn [fst snd]. split; [reflexivity|]. split; [exact Hm|]. split; [exact Hi|].
    split; [intros _ t1 c1 t2 c u E; destruct t1; discriminate|]. split; [reflexivity|]. intros H. exfalso. apply H. constructor.
  - specialize (Hlen ltac:(destruct t; discriminate)). rewrite app_assoc in Hlen |- *. rewrite app_length in Hlen. cbn [List.length] in Hlen.
    assert (K0 : kget (p_data s) ((r ++ t) ++ [c0]) = None).
    { rewrite <- app_assoc. apply (Hno (t ++ [c0]) []); [rewrite app_nil_r; reflexivity|destruct t; discriminate]. }
    assert (L0 : (Z.of_nat (S (List.length (r ++ t))) <= m)%Z) by lia.
    destruct (in_dec ascii_dec c0 (be_letters B)) as [Hc|Hc].
    2:{ rewrite (pk_get_foreign B s (r ++ t) c0 m Hm K0 L0 Hc). cbn [fst snd]. rewrite node_snoc.
        destruct (memc c0 (be_letters B)) eqn:Em; [apply memc_In in Em; contradiction|].
        split; [reflexivity|]. split; [exact Hm|]. split; [exact Hi|]. split; [|split; [reflexivity|reflexivity]].
        intros Hw. exfalso. apply Forall_app in Hw as [_ Hw]. apply Forall_inv in Hw. exact (Hc Hw). }
    destruct IH as (I1 & I2 & I3 & I4 & I5 & I6).
    { intros t1 t2 E. apply (Hno t1 (t2 ++ [c0])). rewrite E, app_assoc. reflexivity. }
    { intros _. lia. }
    rewrite (pk_get_step B s (r ++ t) c0 m Hm K0 L0 Hc). destruct (pk_get B s (r ++ t)) as [s1 d]. cbn [fst snd] in I1, I2, I3, I4, I5, I6. subst d.
    rewrite node_snoc. rewrite (proj2 (memc_In _ _) Hc).
    assert (Hsplit : forall t1 c1 t2, t ++ [c0] = t1 ++ c1 :: t2 -> t1 = t \/ exists t2', t = t1 ++ c1 :: t2').
    { intros t1 c1 t2 E. destruct t2 as [|c2 t2 _] using rev_ind; [apply app_inj_tail in E as [E _]; auto|]. right. rewrite app_comm_cons, app_assoc in E. apply app_inj_tail in E as [E _]. exists t2. exact E. }
    assert (Hnw : ~ word (be_letters B) (t ++ [c0]) -> ~ word (be_letters B) t) by (intros H H'; apply H; apply Forall_app; split; [exact H'|constructor; [exact Hc|constructor]]).
    assert (Hwt : word (be_letters B) (t ++ [c0]) -> word (be_letters B) t) by (intros H; apply Forall_app in H; tauto).
    destruct (node v t) as [d|e] eqn:En.
    2:{ cbn [fst snd rbind]. split; [reflexivity|]. split; [exact I2|]. split; [exact I3|]. split; [|split].
        - intros Hw t1 c1 t2 c u E Eu. destruct (Hsplit t1 c1 t2 E) as [->|(t2' & E')].
          + exfalso. rewrite node_snoc, En in Eu. destruct (memc c _); discriminate.
          + apply (I4 (Hwt Hw) t1 c1 t2' c u E' Eu).
        - intros k Hk. apply I5. intros t1 c1 t2 c u E Eu. apply (Hk t1 c1 (t2 ++ [c0]) c u); [rewrite E, <- app_assoc; reflexivity|exact Eu].
        - intros H. apply I6, Hnw, H. }
    cbn [rbind]. assert (Dd : D d) by (apply (node_D B D f dec_children v t d Hv En)).
    destruct (dec_pure (p_be s1) d I3 Dd) as [J1 J2]. destruct (be_dec B (p_be s1) d) as [b rch]. cbn [fst snd] in J1, J2. subst rch.
    assert (Wt : word (be_letters B) t) by (apply (node_word B f v t d En)).
    destruct (f d) as [ch|e] eqn:Ef.
    2:{ cbn [fst snd p_max p_be p_data rbind]. split; [reflexivity|]. split; [exact I2|]. split; [exact J1|]. split; [|split].
        - intros Hw t1 c1 t2 c u E Eu. destruct (Hsplit t1 c1 t2 E) as [->|(t2' & E')].
          + exfalso. rewrite node_snoc, En in Eu. cbn [rbind] in Eu. rewrite Ef in Eu. destruct (memc c _); discriminate.
          + apply (I4 Wt t1 c1 t2' c u E' Eu).
        - intros k Hk. apply I5. intros t1 c1 t2 c u E Eu. apply (Hk t1 c1 (t2 ++ [c0]) c u); [rewrite E, <- app_assoc; reflexivity|exact Eu].
        - intros H. exfalso. exact (Hnw H Wt). }
    cbn [fst snd p_max p_be p_data rbind]. destruct (dec_children d ch Dd Ef) as [Lch _].
    destruct (child_some (be_letters B) ch c0 Lch Hc) as (u0 & Eu0 & _).
    split; [rewrite kget_children_at, Eu0 by exact Hn; reflexivity|]. split; [exact I2|]. split; [exact J1|]. split; [|split].
    + intros Hw t1 c1 t2 c u E Eu. destruct (Hsplit t1 c1 t2 E) as [->|(t2' & E')].
      * rewrite app_assoc. rewrite kget_children_at by exact Hn. rewrite node_snoc, En in Eu. cbn [rbind] in Eu. rewrite Ef in Eu. cbn [rbind] in Eu.
        destruct (memc c _); [|discriminate]. destruct (child (be_letters B) ch c); [injection Eu as <-; reflexivity|discriminate].
      * rewrite kget_children_other; [apply (I4 Wt t1 c1 t2' c u E' Eu)|exact Hn|].
        intros c' _ Hx. rewrite app_assoc in Hx. apply app_last_inj in Hx as [Hx _]. apply app_inv_head in Hx. subst t1.
        apply (f_equal (@List.length ascii)) in E'. rewrite app_length in E'. cbn in E'. lia.
    + intros k Hk. rewrite kget_children_other; [|exact Hn|].
      * apply I5. intros t1 c1 t2 c u E Eu. apply (Hk t1 c1 (t2 ++ [c0]) c u); [rewrite E, <- app_assoc; reflexivity|exact Eu].
      * intros c Hcl. destruct (child_some (be_letters B) ch c Lch Hcl) as (u & Eu & _). rewrite <- app_assoc.
        apply (Hk t c0 [] c u); [reflexivity|]. rewrite node_snoc, En, (proj2 (memc_In _ _) Hcl). cbn [rbind]. rewrite Ef. cbn [rbind]. rewrite Eu. reflexivity.
    + intros H. exfalso. exact (Hnw H Wt).
Qed.

Lemma nearest_exists {T} (g : key -> option T) : forall q : key, (exists r t, q = r ++ t /\ g r <> None) ->
  exists r t v, q = r ++ t /\ g r = Some v /\ nearest g r t.
Proof using.
  intros q. induction q as [|q c IH] using key_ind_last; intros (r & t & E & Hr).
  - destruct r; [|discriminate]. cbn in E. subst t. destruct (g []) as [v|] eqn:Ev; [|congruence]. exists [], [], v. split; [reflexivity|]. split; [exact Ev|]. intros [|? ?] t2 E H; [congruence|discriminate].
  - destruct (g (q ++ [c])) as [v|] eqn:Ev.
    + exists (q ++ [c]), [], v. split; [rewrite app_nil_r; reflexivity|]. split; [exact Ev|]. intros [|? ?] t2 E' H; [congruence|discriminate].
    + destruct IH as (r' & t' & v & E' & Hv & Hnear).
      * destruct t as [|c' t _] using rev_ind; [rewrite app_nil_r in E; subst r; congruence|]. rewrite app_assoc in E. apply app_inj_tail in E as [E _]. exists r, t. auto.
      * exists r', (t' ++ [c]), v. split; [rewrite E', app_assoc; reflexivity|]. split; [exact Hv|]. intros t1 t2 Et Hne.
        destruct t2 as [|c2 t2 _] using rev_ind.
        -- rewrite app_nil_r in Et. subst t1. rewrite app_assoc, <- E'. exact Ev.
        -- rewrite app_assoc in Et. apply app_inj_tail in Et as [Et _]. apply (Hnear t1 t2 Et Hne).
Qed.

Lemma read_any (s : packet B) m q : p_max s = Some m -> Inv (p_be s) -> (forall k v, kget (p_data s) k = Some v -> D v) ->
  (exists r t : key, q = r ++ t /\ kget (p_data s) r <> None) -> (kget (p_data s) q <> None \/ (Z.of_nat (List.length q) <= m)%Z) ->
  let s' := fst (pk_get B s q) in
  p_max s' = Some m /\ Inv (p_be s') /\ read_as f (be_letters B) (kget (p_data s)) (kget (p_data s')) q (snd (pk_get B s q)).
Proof using Hn dec_pure dec_children.
  intros Hm Hi Hd Hex Hl. destruct (nearest_exists _ q Hex) as (r & t & v & -> & Hr & Hnear).
  destruct (read_effect s m r v Hm Hi Hr (Hd _ _ Hr) t) as (E1 & E2 & E3 & E4 & E5 & E6); [exact Hnear| |].
  - intros Hne. destruct Hl as [Hs|Hl]; [|exact Hl]. exfalso. apply Hs. apply (Hnear t []); [rewrite app_nil_r; reflexivity|exact Hne].
  - split; [exact E2|]. split; [exact E3|]. exists r, t, v. split; [reflexivity|]. split; [exact Hr|]. split; [exact Hnear|]. split; [exact E1|]. split; [exact E4|]. split; [exact E5|].
    intros H k. rewrite (E6 H). reflexivity.
Qed.

(** no prefix of q is stored (the root was deleted by hand) *)
Lemma read_orphan (s : packet B) m : p_max s = Some m -> forall q : key, (forall r t, q = r ++ t -> kget (p_data s) r = None) -> (Z.of_nat (List.length q) <= m)%Z ->
  pk_get B s q = (s, Raise ValueError).
Proof using.
  intros Hm. induction q as [|q c IH] using key_ind_last; intros Hno Hl.
  - apply (pk_get_root_missing B s m Hm); [apply (Hno [] []); reflexivity|cbn in Hl; lia].
  - rewrite app_length in Hl. cbn [List.length] in Hl.
    assert (K0 : kget (p_data s) (q ++ [c]) = None) by (apply (Hno _ []); rewrite app_nil_r; reflexivity).
    destruct (in_dec ascii_dec c (be_letters B)) as [Hc|Hc]; [|apply (pk_get_foreign B s q c m Hm K0); [lia|exact Hc]].
    rewrite (pk_get_step B s q c m Hm K0) by (try lia; exact Hc). rewrite IH; [reflexivity| |lia].
    intros r t E. apply (Hno r (t ++ [c])). rewrite E, app_assoc. reflexivity.
Qed.
End Rd.

(** which stored nodes a read can change: children p ++ [c] of proper prefixes p of q below which no prefix of q is stored *)
Theorem C77_who_changes {T} analyse letters (before after : list ascii -> option T) q res k :
  read_as analyse letters before after q res -> after k <> before k ->
  exists p c c' t, k = p ++ [c] /\ q = p ++ c' :: t /\ nearest before p (c' :: t).
Proof.
  intros (r & t & v & -> & Hr & Hnear & _ & _ & Hoth & _) Hk.
  destruct (in_dec (list_eq_dec ascii_dec) k (flat_map (fun n => map (fun c => r ++ firstn n t ++ [c]) (match k with [] => [] | _ => [last k " "%char] end)) (seq 0 (List.length t)))) as [Hin|Hin].
  - apply in_flat_map in Hin as (n & Hn & Hin). apply in_seq in Hn. apply in_map_iff in Hin as (c & Ek & _).
    destruct (skipn n t) as [|c' t2] eqn:Es.
    + exfalso. apply (f_equal (@List.length ascii)) in Es. rewrite skipn_length in Es. cbn in Es. lia.
    + exists (r ++ firstn n t), c, c', t2. split; [rewrite <- Ek, app_assoc; reflexivity|]. split.
      * rewrite <- app_assoc, <- Es, firstn_skipn. reflexivity.
      * intros t1 t3 E Hne. rewrite <- app_assoc. apply (Hnear (firstn n t ++ t1) t3); [rewrite <- app_assoc, <- E, <- Es, firstn_skipn; reflexivity|]. destruct (firstn n t); [exact Hne|discriminate].
  - exfalso. apply Hk. apply Hoth. intros t1 c1 t2 c u E _ Ek. apply Hin. apply in_flat_map. exists (List.length t1). split; [apply in_seq; rewrite E, app_length; cbn; lia|].
    apply in_map_iff. exists c. split.
    + rewrite E, firstn_app, Nat.sub_diag, firstn_all. cbn [firstn]. rewrite app_nil_r, Ek. reflexivity.
    + destruct k as [|k0 k']; [destruct r; [destruct t1; discriminate|discriminate]|]. left. rewrite Ek, app_assoc. apply last_last.
Qed.
(** ... and those really are replaced by the value computed from the nearest stored ancestor, when the read succeeds *)
Theorem C77_replaced {T} analyse letters (before after : list ascii -> option T) q res w :
  read_as analyse letters before after q res -> res = Ok w ->
  forall p c' t, q = p ++ c' :: t -> nearest before p (c' :: t) -> (exists r1 r2, p = r1 ++ r2 /\ before r1 <> None) ->
  exists r r' v, p = r ++ r' /\ before r = Some v /\ nearest before r r' /\
    forall c u, node_at analyse letters v (r' ++ [c]) = Ok u -> after (p ++ [c]) = Some u.
Proof.
  intros (r & t0 & v & Eq & Hr & Hnear & Hres & Hnew & _) -> p c' t Ep Hp (r1 & r2 & Er & Hr1).
  assert (Hlen : List.length r <= List.length p).
  { destruct (le_lt_dec (List.length r) (List.length p)) as [H|H]; [exact H|]. exfalso.
    assert (Hpre : exists d, r = p ++ d /\ d <> []).
    { exists (skipn (List.length p) r). rewrite Ep in Eq.
      assert (E1 : firstn (List.length p) r = p).
      { apply (f_equal (firstn (List.length p))) in Eq. rewrite !firstn_app, Nat.sub_diag, firstn_all in Eq. cbn [firstn] in Eq. rewrite app_nil_r in Eq.
        replace (List.length p - List.length r) with 0 in Eq by lia. cbn [firstn] in Eq. rewrite app_nil_r in Eq. symmetry. exact Eq. }
      split; [rewrite <- E1 at 1; symmetry; apply firstn_skipn|]. intros E2. apply (f_equal (@List.length ascii)) in E2. rewrite skipn_length in E2. cbn in E2. lia. }
    destruct Hpre as (d & -> & Hd). rewrite Ep in Eq. rewrite <- app_assoc in Eq. apply app_inv_head in Eq. specialize (Hp d t0 Eq Hd). congruence. }
  assert (Hpr : p = r ++ skipn (List.length r) p).
  { assert (E1 : firstn (List.length r) p = r).
    { rewrite Ep in Eq. apply (f_equal (firstn (List.length r))) in Eq. rewrite !firstn_app, Nat.sub_diag, firstn_all in Eq. cbn [firstn] in Eq. rewrite app_nil_r in Eq.
      replace (List.length r - List.length p) with 0 in Eq by lia. cbn [firstn] in Eq. rewrite app_nil_r in Eq. exact Eq. }
    rewrite <- E1 at 1. symmetry. apply firstn_skipn. }
  set (r' := skipn (List.length r) p) in *. assert (Et : t0 = r' ++ c' :: t) by (rewrite Ep, Hpr, <- app_assoc in Eq; apply app_inv_head in Eq; symmetry; exact Eq).
  exists r, r', v. split; [exact Hpr|]. split; [exact Hr|]. split.
  - intros t1 t2 E Hne. apply (Hnear t1 (t2 ++ c' :: t)); [rewrite Et, E, <- app_assoc; reflexivity|exact Hne].
  - intros c u Hu. rewrite Hpr, <- app_assoc. apply (Hnew) with (c1 := c') (t2 := t); [|exact Et|exact Hu].
    symmetry in Hres. clear - Hres. unfold node_at in Hres. assert (G : forall rp w, node_up analyse letters v rp = Ok w -> Forall (fun c => In c letters) rp).
    { induction rp as [|c rp IH]; intros w0 H; [constructor|]. cbn [node_up] in H. destruct (existsb (Ascii.eqb c) letters) eqn:E; [|discriminate].
      destruct (node_up analyse letters v rp) as [x|] eqn:Ex; [|discriminate]. constructor; [|eapply IH; reflexivity]. apply existsb_exists in E as (c2 & H2 & E2). apply Ascii.eqb_eq in E2. subst. exact H2. }
    specialize (G _ _ Hres). unfold word. apply Forall_forall. intros c Hc. rewrite Forall_forall in G. apply G. apply -> in_rev. exact Hc.
Qed.

(** ** C77 for the padded classes: any object state *)
Theorem C77_read_1d {K : CRing} (w : wavelet K) mode axis (s : packet (packet1 w mode axis)) m q : let B := packet1 w mode axis in
  p_max s = Some m -> (exists r t : key, q = r ++ t /\ kget (p_data s) r <> None) -> (kget (p_data s) q <> None \/ (Z.of_nat (List.length q) <= m)%Z) ->
  let s' := fst (pk_get B s q) in
  p_max s' = Some m /\ read_as (dec1 w mode axis) ["a"; "d"]%char (kget (p_data s)) (kget (p_data s')) q (snd (pk_get B s q)).
Proof.
  intros B Hm Hex Hl s'.
  assert (P1 : forall (b : be_st B) (t : tensor K), True -> True -> True /\ snd (be_dec B b t) = dec1 w mode axis t) by (intros; split; [exact I|reflexivity]).
  assert (P2 : forall (t : tensor K) ch, True -> dec1 w mode axis t = Ok ch -> List.length ch = List.length (be_letters B) /\ Forall (fun _ => True) ch).
  { intros t ch _ E. split; [|apply Forall_forall; auto]. unfold dec1 in E. destruct (shape_at t axis); [|discriminate]. cbn in E.
    destruct (wavedec t w _ _ _) as [c|]; [|discriminate]. cbn in E. destruct (pc_items c) as [|p1 l1]; try discriminate.
    destruct p1; try discriminate. destruct l1 as [|p2 l2]; try discriminate. destruct p2; try discriminate. destruct l2; try discriminate. injection E as <-. reflexivity. }
  destruct (read_any B nodup1 (fun _ => True) (fun _ => True) (dec1 w mode axis) P1 P2 s m q Hm I (fun _ _ _ => I) Hex Hl) as (E1 & _ & E2). split; assumption.
Qed.
Theorem C77_orphan {K : CRing} (B : backend K) (s : packet B) m q : p_max s = Some m -> (forall r t, q = r ++ t -> kget (p_data s) r = None) -> (Z.of_nat (List.length q) <= m)%Z ->
  pk_get B s q = (s, Raise ValueError).
Proof. intros. eapply read_orphan; eassumption. Qed.
Theorem C77_read_2d {K : CRing} (w : wavelet K) mode axes separable (s : packet (packet2 w mode axes separable)) m q : let B := packet2 w mode axes separable in
  p_max s = Some m -> (exists r t : key, q = r ++ t /\ kget (p_data s) r <> None) -> (kget (p_data s) q <> None \/ (Z.of_nat (List.length q) <= m)%Z) ->
  let s' := fst (pk_get B s q) in
  p_max s' = Some m /\ read_as (dec2 w mode axes separable) ["a"; "h"; "v"; "d"]%char (kget (p_data s)) (kget (p_data s')) q (snd (pk_get B s q)).
Proof.
  intros B Hm Hex Hl s'.
  assert (P1 : forall (b : be_st B) (t : tensor K), True -> True -> True /\ snd (be_dec B b t) = dec2 w mode axes separable t) by (intros; split; [exact I|reflexivity]).
  assert (P2 : forall (t : tensor K) ch, True -> dec2 w mode axes separable t = Ok ch -> List.length ch = List.length (be_letters B) /\ Forall (fun _ => True) ch).
  { intros t ch _ E. split; [|apply Forall_forall; auto]. unfold dec2 in E. destruct (swap_axes axes t); [|discriminate]. cbn in E. destruct separable.
    - destruct (fswavedec2 t w _ _ _) as [c|]; [|discriminate]. cbn in E. destruct (pc_items c) as [|p1 l1]; try discriminate.
      destruct p1; try discriminate. destruct l1 as [|p2 l2]; try discriminate. destruct p2 as [?|?|d|]; try discriminate. destruct l2; try discriminate.
      destruct (dict_get d "ad"); [|discriminate]. destruct (dict_get d "da"); [|discriminate]. destruct (dict_get d "dd"); [|discriminate]. injection E as <-. reflexivity.
    - destruct (wavedec2 t w _ _ _) as [c|]; [|discriminate]. cbn in E. destruct (pc_items c) as [|p1 l1]; try discriminate.
      destruct p1; try discriminate. destruct l1 as [|p2 l2]; try discriminate. destruct p2 as [?|l|d|]; try discriminate.
      destruct l as [|b1 [|b2 [|b3 [|]]]]; try discriminate. destruct l2; try discriminate. injection E as <-. reflexivity. }
  destruct (read_any B nodup2 (fun _ => True) (fun _ => True) (dec2 w mode axes separable) P1 P2 s m q Hm I (fun _ _ _ => I) Hex Hl) as (E1 & _ & E2). split; assumption.
Qed.
