(** C50 (mapping over coefficient structures) and C51 (deprecated argument names). *)
From Coq Require Import List Arith ZArith Lia Bool String.
From Verif Require Import Base Sums Tensor TensorFacts Util Perm Plumb Accept Examples.
Import ListNotations.

Section TreeMap.
Context {K : CRing}.
Implicit Types t u : tensor K.
Implicit Types c : pycoeffs K.

(** two details are built alike: both tensors, both tuples of one length, or dictionaries with the same keys in the same order *)
Definition alike (v v' : pyval K) : Prop :=
  match v, v' with
  | PT _, PT _ => True
  | PTup l, PTup l' => List.length l = List.length l'
  | PDict d, PDict d' => map fst d = map fst d'
  | _, _ => False
  end.
(** well-formed coefficient structures: a tensor followed by tensors, triples or dictionaries *)
Definition coeff_structure c : Prop :=
  match pc_items c with
  | PT _ :: rest => Forall (fun v => match v with PTup l => List.length l = 3 | POther => False | _ => True end) rest
  | _ => False
  end.
(** lists for one-dimensional coefficients, tuples for details that are tuples or dictionaries *)
Definition usual_kind c : Prop :=
  match pc_items c with
  | _ :: PT _ :: _ => pc_is_list c = true
  | _ :: _ :: _ => pc_is_list c = false
  | _ => True
  end.

Lemma rmap_app {A B} (f : A -> result B) l l' :
  rmap f (l ++ l') = (let* a := rmap f l in let* b := rmap f l' in Ok (a ++ b)%list).
Proof.
  induction l as [|x l IH]; cbn; [destruct (rmap f l'); reflexivity|].
  destruct (f x); cbn; [|reflexivity]. rewrite IH. destruct (rmap f l); cbn; [|reflexivity]. destruct (rmap f l'); reflexivity.
Qed.
Lemma map_element_pass f (v : pyval K) : pv_ok v ->
  match rmap f (pv_tensors v) with
  | Ok ts => exists v', map_element f v = Ok v' /\ alike v v' /\ pv_tensors v' = ts
  | Raise e => map_element f v = Raise e
  end.
Proof.
  intros Hv. destruct v as [t|l|d|]; cbn [pv_tensors map_element].
  - cbn. destruct (f t); cbn; [|reflexivity]. eexists. cbn. auto.
  - cbn in Hv. destruct l as [|a [|b [|c [|e l]]]]; cbn in Hv; try lia. cbn. destruct (f a); cbn; [|reflexivity].
    destruct (f b); cbn; [|reflexivity]. destruct (f c); cbn; [|reflexivity]. eexists. cbn. auto.
  - unfold map_dict.
    assert (G : match rmap f (map snd d) with
      | Ok ts => exists d', rmap (fun kv => let* v := f (snd kv) in Ok (fst kv, v)) d = Ok d' /\ map fst d = map fst d' /\ map snd d' = ts
      | Raise e => rmap (fun kv => let* v := f (snd kv) in Ok (fst kv, v)) d = Raise e end).
    { clear Hv. induction d as [|kv d IH]; cbn; [exists []; auto|]. destruct (f (snd kv)) as [y|e]; cbn; [|reflexivity].
      destruct (rmap f (map snd d)) as [ts|e]; cbn.
      - destruct IH as (d' & -> & E1 & E2). cbn. eexists. split; [reflexivity|]. cbn. rewrite E1, E2. auto.
      - rewrite IH. reflexivity. }
    destruct (rmap f (map snd d)) as [ts|e].
    + destruct G as (d' & -> & E1 & E2). cbn. eexists. split; [reflexivity|]. cbn. auto.
    + rewrite G. reflexivity.
  - destruct Hv.
Qed.

(** ** C50: one pass over the tensors in order, each passed to the function once; the first exception is raised;
    otherwise the result is built alike and contains exactly the images *)
Theorem C50_one_pass c f : coeff_structure c ->
  match rmap f (pc_tensors c) with
  | Ok ts => exists c', coeff_tree_map c f = Ok c' /\ Forall2 alike (pc_items c) (pc_items c') /\ pc_tensors c' = ts /\
      (usual_kind c -> pc_is_list c' = pc_is_list c)
  | Raise e => coeff_tree_map c f = Raise e
  end.
Proof.
  unfold coeff_structure, coeff_tree_map, pc_tensors, usual_kind. destruct c as [il items]. cbn [pc_items pc_is_list].
  destruct items as [|[t0| | |] rest]; try tauto. intros Ho. cbn [flat_map pv_tensors app rmap]. destruct (f t0) as [y|e]; cbn [rbind]; [|reflexivity].
  assert (G : match rmap f (flat_map pv_tensors rest) with
    | Ok ts => exists r', rmap (map_element f) rest = Ok r' /\ Forall2 alike rest r' /\ flat_map pv_tensors r' = ts
    | Raise e => rmap (map_element f) rest = Raise e end).
  { induction Ho as [|v rest Hv Ho IH]; cbn; [exists []; auto|]. rewrite rmap_app.
    assert (Hv' : pv_ok v) by (destruct v; cbn in *; auto). pose proof (map_element_pass f v Hv') as P. destruct (rmap f (pv_tensors v)) as [ts|e]; cbn.
    - destruct P as (v' & -> & P1 & P2). cbn. destruct (rmap f (flat_map pv_tensors rest)) as [us|e]; cbn.
      + destruct IH as (r' & -> & E1 & E2). cbn. eexists. split; [reflexivity|]. split; [constructor; assumption|]. cbn. rewrite P2, E2. reflexivity.
      + rewrite IH. reflexivity.
    - rewrite P. reflexivity. }
  destruct (rmap f (flat_map pv_tensors rest)) as [us|e]; cbn [rbind]; [|rewrite G; reflexivity].
  destruct G as (r' & -> & E1 & E2). cbn [rbind].
  inversion E1 as [|v v' rest1 r1 Ha Hr]; subst; cbn [app].
  - eexists. split; [reflexivity|]. cbn. split; [repeat constructor|]. split; auto.
  - destruct v, v'; cbn in Ha; try contradiction; eexists; (split; [reflexivity|]); cbn [pc_items pc_is_list]; repeat split; auto; constructor; auto; cbn; auto.
Qed.

(** identity and composition *)
Theorem C50_identity c : coeff_structure c -> usual_kind c -> coeff_tree_map c Ok = Ok c.
Proof.
  intros H Hk. rewrite (tree_map_ok c Ok (fun t => t)).
  - f_equal. apply pc_map_id. reflexivity.
  - unfold coeff_structure, usual_kind, pc_regular, kind_ok in *. destruct (pc_items c) as [|[] rest]; tauto.
  - reflexivity.
Qed.
Lemma alike_ok (v v' : pyval K) : alike v v' -> pv_ok v -> pv_ok v'.
Proof. destruct v, v'; cbn; intros; try contradiction; auto. congruence. Qed.
Lemma alike_trans (v1 v2 v3 : pyval K) : alike v1 v2 -> alike v2 v3 -> alike v1 v3.
Proof. destruct v1, v2, v3; cbn; intros; try contradiction; auto; congruence. Qed.
Lemma rmap_comp {A B C} (f : A -> result B) (g : B -> result C) l l' : rmap f l = Ok l' ->
  rmap (fun a => let* b := f a in g b) l = rmap g l'.
Proof.
  revert l'. induction l as [|x l IH]; intros l' H; cbn in H; [injection H as <-; reflexivity|].
  apply rbind_ok in H as (y & Hy & H). apply rbind_ok in H as (ys & Hys & H). injection H as <-. cbn. rewrite Hy. cbn. rewrite (IH _ Hys). reflexivity.
Qed.
(** structures built alike, holding the same tensors, are equal *)
Lemma alike_eq (v v' : pyval K) : alike v v' -> pv_tensors v = pv_tensors v' -> v = v' \/ v = POther.
Proof.
  destruct v, v'; cbn; intros H E; try contradiction; left; f_equal.
  - congruence. - exact E.
  - revert d0 H E. induction d as [|[k x] d IH]; intros [|[k' x'] d'] H E; cbn in *; try discriminate; [reflexivity|].
    injection H as -> H. injection E as -> E. f_equal. apply IH; assumption.
Qed.
Lemma alike_eqs (l l' : list (pyval K)) : Forall2 alike l l' -> Forall pv_ok l -> flat_map pv_tensors l = flat_map pv_tensors l' -> l = l'.
Proof.
  induction 1 as [|v v' l l' Ha H IH]; intros Ho E; [reflexivity|]. inversion Ho as [|? ? Hv Ho']; subst. cbn in E.
  assert (Hlen : List.length (pv_tensors v) = List.length (pv_tensors v')).
  { destruct v, v'; cbn in *; try contradiction; auto. rewrite !map_length. rewrite <- (map_length fst d), <- (map_length fst d0). congruence. }
  assert (E1 : pv_tensors v = pv_tensors v') by (apply (f_equal (firstn (List.length (pv_tensors v)))) in E; rewrite Hlen in E at 2; rewrite !firstn_app, !Nat.sub_diag, !firstn_all in E; cbn in E; rewrite !app_nil_r in E; exact E).
  rewrite E1 in E. apply app_inv_head in E. rewrite (IH Ho' E). destruct (alike_eq v v' Ha E1) as [->| ->]; [reflexivity|destruct Hv].
Qed.
(** the result of a map without errors, as a container: first detail decides the kind *)
Theorem C50_composition c f g c' : coeff_structure c -> usual_kind c -> coeff_tree_map c f = Ok c' ->
  coeff_tree_map c (fun t => let* u := f t in g u) = coeff_tree_map c' g.
Proof.
  intros H Hk Hc. pose proof (C50_one_pass c f H) as P. destruct (rmap f (pc_tensors c)) as [ts|e] eqn:Ef; [|rewrite P in Hc; discriminate].
  destruct P as (c1 & E1 & Ha & Et & Hl). rewrite E1 in Hc. injection Hc as ->. specialize (Hl Hk).
  assert (H' : coeff_structure c').
  { unfold coeff_structure in *. inversion Ha as [Eq1 Eq2|v v' l l' Hv Hl' Eq1 Eq2]; rewrite <- Eq1 in H; [destruct H|].
    destruct v; try contradiction. destruct v'; try contradiction. clear - H Hl'. induction Hl' as [|v v' l l' Hv Hl IH]; [constructor|].
    inversion H; subst. constructor; [|auto]. destruct v, v'; cbn in *; try contradiction; auto; congruence. }
  assert (Hk' : usual_kind c').
  { unfold usual_kind in *. rewrite Hl. inversion Ha as [Eq1 Eq2|v v' l l' Hv Hl' Eq1 Eq2]; [exact I|]. rewrite <- Eq1 in Hk.
    destruct v, v'; try contradiction; inversion Hl' as [|w w' ? ? Hw]; subst; auto; destruct w, w'; cbn in Hw; try contradiction; exact Hk. }
  pose proof (C50_one_pass c (fun t => let* u := f t in g u) H) as P. rewrite (rmap_comp f g _ _ Ef), <- Et in P.
  pose proof (C50_one_pass c' g H') as Q. destruct (rmap g (pc_tensors c')) as [us|e]; [|congruence].
  destruct P as (c2 & -> & Pa & Pt & Pl). destruct Q as (c3 & -> & Qa & Qt & Ql). f_equal. specialize (Pl Hk). specialize (Ql Hk').
  destruct c2 as [b2 i2], c3 as [b3 i3]. cbn in *. f_equal; [congruence|]. apply alike_eqs; [| |unfold pc_tensors in *; cbn in *; congruence].
  - clear - Pa Qa Ha. revert i2 i3 Pa Qa. induction Ha as [|v v' l l' Hv Hl IH]; intros i2 i3 Pa Qa; inversion Pa; subst; inversion Qa; subst; constructor; auto.
    + clear - Hv H1 H2. destruct v, v', y, y0; cbn in *; try contradiction; auto; congruence.
  - clear - H Pa. unfold coeff_structure in H. inversion Pa as [Eq1|v v' l l' Hv Hl Eq1]; [constructor|]. rewrite <- Eq1 in H. destruct v; try contradiction.
    constructor; [destruct v'; cbn in *; auto; contradiction|]. clear - H Hl. induction Hl as [|w w' l l' Hv' Hl IH]; [constructor|]. inversion H; subst. constructor; [|auto].
    destruct w, w'; cbn in *; try contradiction; auto; congruence.
Qed.
(** an unexpected element is rejected with ValueError (if the tensors before it are accepted) *)
Theorem C50_other_rejected c f t0 (l r : list (pyval K)) : pc_items c = PT t0 :: l ++ POther :: r -> Forall pv_ok l ->
  (forall t, exists u, f t = Ok u) -> coeff_tree_map c f = Raise ValueError.
Proof.
  intros E Ho Hf. unfold coeff_tree_map. rewrite E. destruct (Hf t0) as [y ->]. cbn [rbind].
  assert (G : rmap (map_element f) (l ++ POther :: r) = Raise ValueError); [|rewrite G; reflexivity].
  clear E. induction Ho as [|v l Hv Ho IH]; [reflexivity|]. cbn. pose proof (map_element_pass f v Hv) as P.
  assert (R : forall l', exists ts, rmap f l' = Ok ts).
  { induction l' as [|a l' [bs IHl]]; [eexists; reflexivity|]. cbn. destruct (Hf a) as [b ->]. cbn. rewrite IHl. cbn. eauto. }
  specialize (R (pv_tensors v)).
  destruct R as [ts R]. rewrite R in P. destruct P as (v' & -> & _). cbn. rewrite IH. reflexivity.
Qed.
(** _flatten_2d_coeff_lst lists the tensors of the structure in that same order, flattened row by row if asked to *)
Theorem C50_flatten (a : tensor K) (ds : list (tensor K * tensor K * tensor K)) :
  let c := mkPC false (PT a :: map (fun d => PTup [fst (fst d); snd (fst d); snd d]) ds) in
  let ls := map (fun d => [fst (fst d); snd (fst d); snd d]) ds in
  flatten_2d_coeff_lst a ls false = pc_tensors c /\
  map shp (flatten_2d_coeff_lst a ls true) = map (fun t => [prodl (shp t)]) (pc_tensors c) /\
  map dat (flatten_2d_coeff_lst a ls true) = map dat (pc_tensors c).
Proof.
  cbv zeta. unfold flatten_2d_coeff_lst, pc_tensors. cbn [pc_items flat_map pv_tensors app map].
  assert (E : forall p : tensor K -> tensor K, flat_map (map p) (map (fun d => [fst (fst d); snd (fst d); snd d]) ds) =
                map p (flat_map pv_tensors (map (fun d => PTup [fst (fst d); snd (fst d); snd d]) ds))).
  { intros p. induction ds as [|d r IH]; [reflexivity|]. cbn. cbn in IH. rewrite IH. reflexivity. }
  rewrite !E, !map_map, map_id. repeat split; reflexivity.
Qed.
End TreeMap.
(** tuples of another length are not part of the API: a fourth entry is silently dropped *)
Theorem C50_four_tuple_refuted : exists (c c' : pycoeffs ZK), coeff_tree_map c Ok = Ok c' /\ List.length (pc_tensors c) = 5 /\ List.length (pc_tensors c') = 4.
Proof.
  set (t := mkT (K := ZK) f32 [1] [1%Z]). exists (mkPC false [PT t; PTup [t; t; t; t]]). eexists. split; [reflexivity|]. split; reflexivity.
Qed.
Theorem ex_C50 : exists c : pycoeffs ZK, coeff_structure c /\ usual_kind c /\ List.length (pc_tensors c) = 6.
Proof.
  set (t := mkT (K := ZK) f32 [1] [1%Z]). exists (mkPC false [PT t; PTup [t; t; t]; PDict [("ad"%string, t); ("da"%string, t)]]).
  split; [|split; reflexivity]. cbn. repeat constructor.
Qed.

(** * C51 *)
Lemma NoDup_snoc {A} (l : list A) x : ~ In x l -> NoDup l -> NoDup (l ++ [x]).
Proof.
  intros H. induction 1 as [|y l Hy Hl IH]; cbn; [repeat constructor; auto|]. constructor; [|apply IH; intros X; apply H; right; exact X].
  intros X. apply in_app_or in X as [X|[X|[]]]; [contradiction|]. apply H. left. symmetry. exact X.
Qed.
Section Alias.
Context {V R : Type}.
Notation kw := (list (string * V)).
(** the value of a keyword *)
Fixpoint lookup (d : kw) (k : string) : option V :=
  match d with [] => None | (k', v) :: r => if String.eqb k' k then Some v else lookup r k end.

Lemma kw_mem_lookup (d : kw) k : kw_mem k d = match lookup d k with Some _ => true | None => false end.
Proof. induction d as [|[k' v] d IH]; cbn; [reflexivity|]. destruct (String.eqb k' k); [reflexivity|exact IH]. Qed.
Lemma lookup_app (d d' : kw) k : lookup (d ++ d') k = match lookup d k with Some v => Some v | None => lookup d' k end.
Proof. induction d as [|[k' v] d IH]; cbn; [reflexivity|]. destruct (String.eqb k' k); [reflexivity|exact IH]. Qed.
Lemma lookup_none (d : kw) k : lookup d k = None <-> ~ In k (map fst d).
Proof.
  induction d as [|[k' v] d IH]; cbn; [tauto|]. destruct (String.eqb_spec k' k) as [->|Hn]; [split; [discriminate|tauto]|]. rewrite IH. tauto.
Qed.
Lemma kw_pop_spec k (d : kw) : match kw_pop k d with
  | None => lookup d k = None
  | Some (v, d') => lookup d k = Some v /\ (forall k', k' <> k -> lookup d' k' = lookup d k') /\
      (NoDup (map fst d) -> lookup d' k = None /\ NoDup (map fst d')) /\ incl (map fst d') (map fst d) end.
Proof.
  induction d as [|[a v] d IH]; cbn; [reflexivity|]. destruct (String.eqb_spec a k) as [->|Hn].
  - split; [reflexivity|]. split; [intros k' Hk'; destruct (String.eqb_spec k k'); [congruence|reflexivity]|]. split.
    + intros H. inversion H; subst. split; [apply lookup_none; assumption|assumption].
    + intros x Hx. right. exact Hx.
  - destruct (kw_pop k d) as [[v' d']|]; [|exact IH]. destruct IH as (E1 & E2 & E3 & E4). split; [exact E1|]. split; [|split].
    + intros k' Hk'. cbn. destruct (String.eqb a k'); [reflexivity|auto].
    + intros H. inversion H as [|? ? Hi Hd]; subst. destruct (E3 Hd) as [E5 E6]. cbn. destruct (String.eqb_spec a k); [contradiction|]. split; [exact E5|].
      constructor; [|exact E6]. intros Hin. apply Hi, E4. exact Hin.
    + intros x [<-|Hx]; [left; reflexivity|right; apply E4; exact Hx].
Qed.
Definition present (d : kw) (k : string) : Prop := In k (map fst d).
Lemma present_lookup d k : present d k <-> exists v, lookup d k = Some v.
Proof.
  unfold present. destruct (lookup d k) eqn:E; [|apply lookup_none in E; split; [tauto|intros [v H]; discriminate]].
  split; [eauto|]. intros _. destruct (in_dec string_dec k (map fst d)) as [H|H]; [exact H|]. apply lookup_none in H. congruence.
Qed.
(** what the keywords mean after renaming *)
Fixpoint source (al : list (string * string)) (d : kw) (k : string) : option string :=
  match al with
  | [] => None
  | (a, n) :: r => if String.eqb n k then match lookup d a with Some _ => Some a | None => None end else source r d k
  end.
Definition conflict (al : list (string * string)) (d : kw) : Prop := exists a n, In (a, n) al /\ present d a /\ present d n.

Lemma source_none al d k : ~ In k (map snd al) -> source al d k = None.
Proof. induction al as [|[a n] al IH]; cbn; [reflexivity|]. intros H. destruct (String.eqb_spec n k); [tauto|]. apply IH. tauto. Qed.
Lemma source_ext al d d' k : (forall a, In a (map fst al) -> lookup d a = lookup d' a) -> source al d k = source al d' k.
Proof.
  induction al as [|[a n] al IH]; cbn; intros H; [reflexivity|]. rewrite (H a) by auto. destruct (String.eqb n k); [reflexivity|]. apply IH. auto.
Qed.
Lemma source_in al d k a : source al d k = Some a -> In a (map fst al).
Proof.
  induction al as [|[a' n] al IH]; cbn; [discriminate|]. destruct (String.eqb n k).
  - destruct (lookup d a'); [|discriminate]. intros H. injection H as <-. auto.
  - auto.
Qed.

Lemma rename_spec al : forall (d : kw) ws, NoDup (map fst d) -> NoDup (map fst al ++ map snd al) ->
  (conflict al d /\ rename_kwargs al d ws = Raise TypeError) \/
  (~ conflict al d /\ exists d' ws', rename_kwargs al d ws = Ok (d', ws') /\ NoDup (map fst d') /\
     ws' = (ws ++ filter (fun a => match lookup d a with Some _ => true | None => false end) (map fst al))%list /\
     forall k, lookup d' k = if in_dec string_dec k (map fst al) then None
                             else match source al d k with Some a => lookup d a | None => lookup d k end).
Proof.
  induction al as [|[a n] al IH]; intros d ws Hd Hal.
  - right. split; [intros (a & n & [] & _)|]. exists d, ws. cbn. rewrite app_nil_r. auto.
  - cbn in Hal. inversion Hal as [|? ? Ha Hal']; subst.
    assert (Hn : NoDup (map fst al ++ map snd al) /\ ~ In n (map fst al ++ map snd al)).
    { apply NoDup_remove in Hal'. exact Hal'. }
    destruct Hn as [Hal2 Hn].
    assert (Hane : a <> n) by (intros ->; apply Ha; apply in_or_app; right; left; reflexivity).
    assert (Haf : ~ In a (map fst al)) by (intros X; apply Ha, in_or_app; left; exact X).
    assert (Has : ~ In a (map snd al)) by (intros X; apply Ha, in_or_app; right; right; exact X).
    assert (Hnf : ~ In n (map fst al)) by (intros X; apply Hn, in_or_app; left; exact X).
    assert (Hns : ~ In n (map snd al)) by (intros X; apply Hn, in_or_app; right; exact X).
    cbn [rename_kwargs]. pose proof (kw_pop_spec a d) as P. destruct (kw_pop a d) as [[v d1]|].
    + destruct P as (E1 & E2 & E3 & E4). destruct (E3 Hd) as [E5 E6]. rewrite kw_mem_lookup. destruct (lookup d n) as [vn|] eqn:En.
      * left. split; [|reflexivity]. exists a, n. split; [left; reflexivity|]. split; apply present_lookup; eauto.
      * assert (Hd1 : NoDup (map fst (d1 ++ [(n, v)]))).
        { rewrite map_app. cbn. apply NoDup_snoc; [|exact E6]. apply lookup_none. rewrite E2 by congruence. exact En. }
        assert (L1 : forall k, lookup (d1 ++ [(n, v)]) k = if String.eqb k a then None else if String.eqb k n then Some v else lookup d k).
        { intros k. rewrite lookup_app. cbn. destruct (String.eqb_spec k a) as [->|Hk].
          - rewrite E5. destruct (String.eqb_spec n a); [congruence|reflexivity].
          - rewrite E2 by exact Hk. destruct (String.eqb_spec k n) as [->|Hk']; [rewrite En, String.eqb_refl; reflexivity|].
            destruct (String.eqb_spec n k); [congruence|]. destruct (lookup d k); reflexivity. }
        assert (Lal : forall a', In a' (map fst al) -> lookup (d1 ++ [(n, v)]) a' = lookup d a').
        { intros a' H'. rewrite L1. destruct (String.eqb_spec a' a) as [->|]; [contradiction|]. destruct (String.eqb_spec a' n) as [->|]; [contradiction|reflexivity]. }
        assert (Lsn : forall n', In n' (map snd al) -> lookup (d1 ++ [(n, v)]) n' = lookup d n').
        { intros n' H'. rewrite L1. destruct (String.eqb_spec n' a) as [->|]; [contradiction|]. destruct (String.eqb_spec n' n) as [->|]; [contradiction|reflexivity]. }
        assert (Cf : conflict al (d1 ++ [(n, v)]) <-> conflict ((a, n) :: al) d).
        { split.
          - intros (a' & n' & Hin & P1 & P2). exists a', n'. split; [right; exact Hin|]. apply present_lookup in P1 as [v1 P1]. apply present_lookup in P2 as [v2 P2].
            pose proof (in_map fst _ _ Hin). pose proof (in_map snd _ _ Hin). cbn in *. rewrite Lal in P1 by assumption. rewrite Lsn in P2 by assumption. split; apply present_lookup; eauto.
          - intros (a' & n' & [Hin|Hin] & P1 & P2).
            + injection Hin as <- <-. apply present_lookup in P2 as [? P2]. congruence.
            + exists a', n'. split; [exact Hin|]. pose proof (in_map fst _ _ Hin) as Q1. pose proof (in_map snd _ _ Hin) as Q2. cbn in Q1, Q2.
              apply present_lookup in P1 as [v1 P1]. apply present_lookup in P2 as [v2 P2]. rewrite <- (Lal _ Q1) in P1. rewrite <- (Lsn _ Q2) in P2. split; apply present_lookup; eauto. }
        destruct (IH (d1 ++ [(n, v)])%list (ws ++ [a])%list Hd1 Hal2) as [[C E]|(C & d' & ws' & E & ND & Ew & L)].
        -- left. split; [apply Cf; exact C|exact E].
        -- right. split; [rewrite <- Cf; exact C|]. exists d', ws'. split; [exact E|]. split; [exact ND|]. split.
           ++ rewrite Ew. cbn. rewrite E1, <- app_assoc. cbn. f_equal. f_equal. apply filter_ext_in. intros a' Ha'. rewrite Lal by exact Ha'. reflexivity.
           ++ intros k. rewrite L. cbn [map fst source]. 
              destruct (in_dec string_dec k (map fst al)) as [Hk|Hk].
              ** destruct (in_dec string_dec k (a :: map fst al)) as [Hk'|Hk']; [reflexivity|]. exfalso. apply Hk'. right. exact Hk.
              ** destruct (in_dec string_dec k (a :: map fst al)) as [Hk'|Hk'].
                 --- destruct Hk' as [<-|Hk']; [|contradiction]. rewrite source_none by exact Has. rewrite E5 || rewrite L1. rewrite ?String.eqb_refl. reflexivity.
                 --- destruct (String.eqb_spec n k) as [<-|Hnk].
                     +++ rewrite source_none by exact Hns. rewrite E1. rewrite L1. destruct (String.eqb_spec n a); [congruence|]. rewrite String.eqb_refl. symmetry. exact E1.
                     +++ rewrite (source_ext al (d1 ++ [(n, v)]) d k Lal). destruct (source al d k) as [a'|] eqn:Es.
                         *** apply Lal. eapply source_in. exact Es.
                         *** rewrite L1. destruct (String.eqb_spec k a) as [->|]; [exfalso; apply Hk'; left; reflexivity|]. destruct (String.eqb_spec k n); [congruence|reflexivity].
    + assert (Cf : conflict al d <-> conflict ((a, n) :: al) d).
      { split.
        - intros (a' & n' & Hin & Q). exists a', n'. split; [right; exact Hin|exact Q].
        - intros (a' & n' & [Hin|Hin] & P1 & P2); [|exists a', n'; auto]. injection Hin as <- <-. apply present_lookup in P1 as [? P1]. congruence. }
      destruct (IH d ws Hd Hal2) as [[C E]|(C & d' & ws' & E & ND & Ew & L)].
      * left. split; [apply Cf; exact C|exact E].
      * right. split; [rewrite <- Cf; exact C|]. exists d', ws'. split; [exact E|]. split; [exact ND|]. split.
        -- rewrite Ew. cbn. rewrite P. reflexivity.
        -- intros k. rewrite L. cbn [map fst source].
           destruct (in_dec string_dec k (map fst al)) as [Hk|Hk].
           ++ destruct (in_dec string_dec k (a :: map fst al)) as [Hk'|Hk']; [reflexivity|]. exfalso. apply Hk'. right. exact Hk.
           ++ destruct (in_dec string_dec k (a :: map fst al)) as [Hk'|Hk'].
              ** destruct Hk' as [<-|Hk']; [|contradiction]. rewrite source_none by exact Has. exact P.
              ** destruct (String.eqb_spec n k) as [<-|Hnk]; [|reflexivity]. rewrite source_none by exact Hns. rewrite P. reflexivity.
Qed.

(** ** C51.  The wrapped function sees its keywords as a mapping: it gives equal results on equal mappings. *)
Definition by_value {A} (f : A -> kw -> result R) : Prop :=
  forall args d d', NoDup (map fst d) -> NoDup (map fst d') -> (forall k, lookup d k = lookup d' k) -> f args d = f args d'.
(** the same call written with the new names *)
Definition new_name (al : list (string * string)) (k : string) : string :=
  match find (fun an => String.eqb (fst an) k) al with Some an => snd an | None => k end.
Definition renamed (al : list (string * string)) (d : kw) : kw := map (fun kv => (new_name al (fst kv), snd kv)) d.

Lemma new_name_in al a n : NoDup (map fst al) -> In (a, n) al -> new_name al a = n.
Proof.
  unfold new_name. induction al as [|[a' n'] al IH]; cbn; [tauto|]. intros Hd [E|Hin].
  - injection E as -> ->. rewrite String.eqb_refl. reflexivity.
  - inversion Hd; subst. destruct (String.eqb_spec a' a) as [->|]; [exfalso; apply (H1 (in_map fst _ _ Hin))|]. apply IH; assumption.
Qed.
Lemma new_name_out al a : ~ In a (map fst al) -> new_name al a = a.
Proof.
  unfold new_name. intros H. destruct (find _ al) as [[a' n']|] eqn:E; [|reflexivity]. apply find_some in E as [E1 E2]. apply String.eqb_eq in E2. cbn in E2. subst.
  exfalso. apply H. apply (in_map fst _ _ E1).
Qed.
Lemma new_name_cases al k : In (k, new_name al k) al \/ (~ In k (map fst al) /\ new_name al k = k).
Proof.
  unfold new_name. destruct (find _ al) as [[a' n']|] eqn:E.
  - apply find_some in E as [E1 E2]. apply String.eqb_eq in E2. cbn in *. subst. left. exact E1.
  - right. split; [|reflexivity]. intros H. apply in_map_iff in H as [[a n] [<- H]]. pose proof (find_none _ _ E _ H) as X. cbn in X. rewrite String.eqb_refl in X. discriminate.
Qed.
Lemma source_some al (d : kw) k a : NoDup (map snd al) -> (source al d k = Some a <-> In (a, k) al /\ present d a).
Proof.
  induction al as [|[a' n'] al IH]; cbn; intros Hd; [split; [discriminate|tauto]|]. inversion Hd as [|? ? Hn Hd']; subst. destruct (String.eqb_spec n' k) as [->|Hne].
  - destruct (lookup d a') as [v|] eqn:E.
    + split; [intros X; injection X as <-; split; [auto|apply present_lookup; eauto]|]. intros [[X|X] _]; [congruence|]. exfalso. apply Hn, (in_map snd _ _ X).
    + split; [discriminate|]. intros [[X|X] Hp]; [injection X as ->; apply present_lookup in Hp as [? Hp]; congruence|]. exfalso. apply Hn, (in_map snd _ _ X).
  - rewrite (IH Hd'). split; [tauto|]. intros [[X|X] Hp]; [congruence|auto].
Qed.
Lemma NoDup_split {A} (l l' : list A) : NoDup (l ++ l') -> NoDup l /\ NoDup l' /\ forall x, In x l -> ~ In x l'.
Proof.
  induction l as [|x l IH]; cbn; [intros; repeat split; [constructor|assumption|tauto]|]. intros H. inversion H as [|? ? Hx H']; subst. destruct (IH H') as (I1 & I2 & I3).
  split; [constructor; [intros X; apply Hx, in_or_app; auto|exact I1]|]. split; [exact I2|]. intros y [->|Hy] Hi; [apply Hx, in_or_app; auto|apply (I3 y Hy Hi)].
Qed.
Lemma in_lookup (d : kw) k v : NoDup (map fst d) -> In (k, v) d -> lookup d k = Some v.
Proof.
  induction d as [|[k' v'] d IH]; cbn; [tauto|]. intros Hd [E|H]; [injection E as -> ->; rewrite String.eqb_refl; reflexivity|]. inversion Hd; subst.
  destruct (String.eqb_spec k' k) as [->|]; [exfalso; apply H2, (in_map fst _ _ H)|]. auto.
Qed.
Lemma lookup_in (d : kw) k v : lookup d k = Some v -> In (k, v) d.
Proof. induction d as [|[k' v'] d IH]; cbn; [discriminate|]. destruct (String.eqb_spec k' k) as [->|]; [intros E; injection E as ->; auto|auto]. Qed.

Section Table.
Variable al : list (string * string).
Hypothesis Hal : NoDup (map fst al ++ map snd al).

Lemma new_name_injective (d : kw) k k' : ~ conflict al d -> present d k -> present d k' -> new_name al k = new_name al k' -> k = k'.
Proof.
  intros C P P' E. destruct (NoDup_split _ _ Hal) as (N1 & N2 & N3).
  destruct (new_name_cases al k) as [I|[I X]], (new_name_cases al k') as [I'|[I' X']].
  - rewrite E in I. revert I I'. generalize (new_name al k'). clear - N2. induction al as [|[a n] l IH]; cbn; [tauto|]. cbn in N2. inversion N2 as [|? ? Hn Hd]; subst.
    intros m [Q|Q] [Q'|Q'].
    + congruence.
    + injection Q as -> ->. exfalso. apply Hn. apply (in_map snd _ _ Q').
    + injection Q' as -> ->. exfalso. apply Hn. apply (in_map snd _ _ Q).
    + eapply IH; eauto.
  - exfalso. apply C. exists k, k'. rewrite X' in E. rewrite E in I. auto.
  - exfalso. apply C. exists k', k. rewrite X in E. rewrite <- E in I'. auto.
  - congruence.
Qed.
Lemma renamed_NoDup (d : kw) : ~ conflict al d -> NoDup (map fst d) -> NoDup (map fst (renamed al d)).
Proof.
  intros C Hd. unfold renamed. rewrite map_map. cbn [fst].
  assert (G : forall l : kw, incl l d -> NoDup (map fst l) -> NoDup (map (fun x => new_name al (fst x)) l)); [|apply G; [apply incl_refl|exact Hd]].
  induction l as [|[k v] l IH]; cbn; intros Hi Hn; [constructor|]. inversion Hn as [|? ? Hk Hn']; subst. constructor; [|apply IH; [intros x Hx; apply Hi; right; exact Hx|exact Hn']].
  intros H. apply in_map_iff in H as [[k' v'] [E H]]. cbn in E. apply Hk.
  replace k with k'; [apply (in_map fst _ _ H)|]. apply (new_name_injective d); auto; [apply (in_map fst _ (k', v')); apply Hi; right; exact H|apply (in_map fst _ (k, v)); apply Hi; left; reflexivity].
Qed.
Lemma renamed_lookup (d : kw) k : ~ conflict al d -> NoDup (map fst d) ->
  lookup (renamed al d) k = if in_dec string_dec k (map fst al) then None
                            else match source al d k with Some a => lookup d a | None => lookup d k end.
Proof.
  intros C Hd. destruct (NoDup_split _ _ Hal) as (N1 & N2 & N3). pose proof (renamed_NoDup d C Hd) as ND.
  assert (B : forall a v, In (a, v) d -> new_name al a = k -> lookup (renamed al d) k = Some v).
  { intros a v Hin <-. apply in_lookup; [exact ND|]. unfold renamed. apply (in_map (fun kv => (new_name al (fst kv), snd kv)) _ _ Hin). }
  assert (None' : (forall a, present d a -> new_name al a <> k) -> lookup (renamed al d) k = None).
  { intros H. apply lookup_none. unfold renamed. rewrite map_map. cbn [fst]. intros X. apply in_map_iff in X as [[a v] [E X]]. apply (H a); [apply (in_map fst _ _ X)|exact E]. }
  destruct (in_dec string_dec k (map fst al)) as [Hk|Hk].
  - apply None'. intros a Ha E. destruct (new_name_cases al a) as [I|[I X]].
    + rewrite E in I. apply (N3 k Hk (in_map snd _ _ I)).
    + rewrite X in E. subst. contradiction.
  - destruct (source al d k) as [a|] eqn:Es.
    + apply source_some in Es as [Hin Hp]; [|exact N2]. apply present_lookup in Hp as [v Hv]. rewrite Hv. apply (B a); [apply lookup_in; exact Hv|]. apply new_name_in; assumption.
    + destruct (lookup d k) as [v|] eqn:El.
      * apply (B k); [apply lookup_in; exact El|]. apply new_name_out. exact Hk.
      * apply None'. intros a Ha E. destruct (new_name_cases al a) as [I|[I X]].
        -- rewrite E in I. assert (X : source al d k = Some a) by (apply source_some; auto). congruence.
        -- rewrite X in E. subst. apply present_lookup in Ha as [? Ha]. congruence.
Qed.

(** a call giving an old and its new name raises TypeError, whatever the function does (it is not called) *)
Theorem C51_both_names {A} (f : A -> kw -> result R) args (d : kw) : NoDup (map fst d) ->
  (exists old new, In (old, new) al /\ In old (map fst d) /\ In new (map fst d)) ->
  deprecated_alias al f args d = ([], Raise TypeError).
Proof.
  intros Hd C. unfold deprecated_alias. destruct (rename_spec al d [] Hd Hal) as [[_ E]|[C' _]]; [|exfalso; apply C'; exact C]. rewrite E. reflexivity.
Qed.
(** otherwise it is the call written with the new names, plus one warning per old name used *)
Theorem C51_same_as_new_names {A} (f : A -> kw -> result R) args (d : kw) : NoDup (map fst d) -> by_value f ->
  ~ (exists old new, In (old, new) al /\ In old (map fst d) /\ In new (map fst d)) ->
  snd (deprecated_alias al f args d) = f args (renamed al d) /\
  forall old, In old (fst (deprecated_alias al f args d)) <-> In old (map fst al) /\ In old (map fst d).
Proof.
  intros Hd Hf C. unfold deprecated_alias. destruct (rename_spec al d [] Hd Hal) as [[C' _]|(_ & d' & ws & E & ND & Ew & L)]; [exfalso; apply C; exact C'|].
  rewrite E. cbn [fst snd]. split.
  - apply Hf; [exact ND|apply renamed_NoDup; assumption|]. intros k. rewrite L, renamed_lookup by assumption. reflexivity.
  - intros old. rewrite Ew. cbn. rewrite filter_In. change (In old (map fst d)) with (present d old). rewrite present_lookup.
    destruct (lookup d old) as [v|]; split; intros [H1 H2]; (split; [exact H1|]); try discriminate; eauto. destruct H2 as [? H2]. discriminate.
Qed.
(** without old names the wrapper is the function *)
Theorem C51_transparent {A} (f : A -> kw -> result R) args (d : kw) : (forall old, In old (map fst al) -> ~ In old (map fst d)) ->
  deprecated_alias al f args d = ([], f args d).
Proof.
  intros H. unfold deprecated_alias. replace (rename_kwargs al d []) with (@Ok (kw * list string) (d, [])); [reflexivity|]. clear Hal.
  induction al as [|[a n] l IH]; [reflexivity|]. cbn. assert (E : kw_pop a d = None).
  { pose proof (kw_pop_spec a d) as P. destruct (kw_pop a d) as [[v d1]|]; [|reflexivity]. destruct P as [P _]. exfalso. apply (H a); [left; reflexivity|]. apply present_lookup. eauto. }
  rewrite E. apply IH. intros old Ho. apply H. right. exact Ho.
Qed.
End Table.
End Alias.

(** the table used by the library (matmul_transform*.py, packets.py: boundary or boundary_orthogonalization -> orthogonalization) *)
Definition lib_alias : list (string * string) := [("boundary", "orthogonalization")]%string.
Theorem ex_C51 : NoDup (map fst lib_alias ++ map snd lib_alias) /\
  exists (f : unit -> list (string * nat) -> result nat) (d : list (string * nat)), by_value f /\ NoDup (map fst d) /\
    ~ (exists old new, In (old, new) lib_alias /\ In old (map fst d) /\ In new (map fst d)) /\
    deprecated_alias lib_alias f tt d = (["boundary"%string], Ok 7).
Proof.
  split; [repeat constructor; cbn; intuition discriminate|].
  exists (fun _ d => match lookup d "orthogonalization" with Some v => Ok v | None => Raise TypeError end), [("level", 3); ("boundary", 7)]%string.
  split; [intros [] d d' _ _ H; rewrite H; reflexivity|]. split; [repeat constructor; cbn; intuition discriminate|]. split; [|reflexivity].
  intros (o & n & [X|[]] & _ & H). injection X as <- <-. cbn in H. intuition discriminate.
Qed.
