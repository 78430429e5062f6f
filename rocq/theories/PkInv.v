(** Invariants of packet objects whose one-level transforms have a state (the dictionaries of matrix objects of
    mode="boundary"): they survive every operation, failing ones included. *)
From Coq Require Import List Arith ZArith Lia Bool String Ascii.
From Verif Require Import Base Tensor TensorFacts Util Perm Accept Spec Tags Sparse SparseMM Mat1 MatN Packets SpecPk PacketFacts PacketsM.
Import ListNotations.

Section Inv.
Context {K : CRing} (B : backend K).
Implicit Types (s : packet B) (v t : tensor K).
Variables (Inv : be_st B -> Prop) (D : tensor K -> Prop).
Hypothesis dec_inv : forall b t, Inv b -> D t -> Inv (fst (be_dec B b t)) /\ forall ch, snd (be_dec B b t) = Ok ch -> Forall D ch.
Hypothesis rec_inv : forall b ch, Inv b -> Forall D ch -> Inv (fst (be_rec B b ch)) /\ forall r, snd (be_rec B b ch) = Ok r -> D r.
Hypothesis crop_inv : forall r n r', D r -> D n -> be_crop B r n = Ok r' -> D r'.

(** every stored tensor is in D (the entries of the list, shadowed ones included) *)
Definition sound s : Prop := Inv (p_be s) /\ Forall (fun kv => D (snd kv)) (p_data s).
Lemma sound_get s k v : Forall (fun kv => D (snd kv)) (p_data s) -> kget (p_data s) k = Some v -> D v.
Proof. induction (p_data s) as [|[k' u] d IH]; cbn; [discriminate|]. intros H. inversion H; subst. destruct (key_eqb k' k); [intros E; injection E as <-; assumption|auto]. Qed.
Lemma kset_D (d : kdict (tensor K)) k v : Forall (fun kv => D (snd kv)) d -> D v -> Forall (fun kv => D (snd kv)) (kset d k v).
Proof. intros Hd Hv. induction Hd as [|[k' u] d Hu Hd IH]; cbn [kset]; [repeat constructor; exact Hv|]. destruct (key_eqb k' k); constructor; auto. Qed.
Lemma kdel_D (d : kdict (tensor K)) k : Forall (fun kv => D (snd kv)) d -> Forall (fun kv => D (snd kv)) (kdel d k).
Proof. intros Hd. induction Hd as [|[k' u] d Hu Hd IH]; cbn [kdel]; [constructor|]. destruct (key_eqb k' k); [exact Hd|constructor; auto]. Qed.
Lemma children_D path letters : forall (d : kdict (tensor K)) ch, Forall (fun kv => D (snd kv)) d -> Forall D ch -> Forall (fun kv => D (snd kv)) (set_children d path letters ch).
Proof.
  induction letters as [|c ls IH]; intros d ch Hd Hc; [exact Hd|]. destruct ch as [|v vs]; [exact Hd|]. cbn [set_children]. inversion Hc; subst. apply IH; [apply kset_D; assumption|assumption].
Qed.
Lemma sound_read rk : forall s, sound s -> sound (fst (pk_get_rev B rk s)) /\ forall v, snd (pk_get_rev B rk s) = Ok v -> D v.
Proof.
  induction rk as [|c rp IH]; intros s Hs; cbn [pk_get_rev].
  - destruct (p_max s) as [m|]; [|split; [exact Hs|discriminate]]. destruct (kget (p_data s) (rev [])) as [v|] eqn:E.
    + split; [exact Hs|]. intros u Hu. injection Hu as <-. eapply sound_get; [apply Hs|exact E].
    + destruct (m <? _)%Z; (split; [exact Hs|discriminate]).
  - destruct (p_max s) as [m|]; [|split; [exact Hs|discriminate]]. destruct (kget (p_data s) (rev (c :: rp))) as [v|] eqn:E.
    + split; [exact Hs|]. intros u Hu. injection Hu as <-. eapply sound_get; [apply Hs|exact E].
    + destruct (m <? _)%Z; [split; [exact Hs|discriminate]|]. destruct (memc c (be_letters B)); [|split; [exact Hs|discriminate]].
      destruct (IH s Hs) as [H1 H2]. destruct (pk_get_rev B rp s) as [s1 r]. cbn [fst snd] in H1, H2.
      destruct r as [data|e]; [|split; [exact H1|discriminate]]. destruct (dec_inv (p_be s1) data (proj1 H1) (H2 data eq_refl)) as [G1 G2].
      destruct (be_dec B (p_be s1) data) as [b rch]. cbn [fst snd] in G1, G2. destruct rch as [ch|e].
      * assert (Hd : Forall (fun kv => D (snd kv)) (set_children (p_data s1) (rev rp) (be_letters B) ch)) by (apply children_D; [apply H1|apply G2; reflexivity]).
        cbn [fst snd]. split; [split; assumption|]. intros v Hv.
        destruct (kget (set_children (p_data s1) (rev rp) (be_letters B) ch) (rev (c :: rp))) as [u|] eqn:Eu; [|discriminate]. injection Hv as <-.
        apply (sound_get (mkP (set_children (p_data s1) (rev rp) (be_letters B) ch) (p_max s1) b) (rev (c :: rp))); assumption.
      * cbn [fst snd]. split; [split; [exact G1|apply H1]|discriminate].
Qed.
Lemma sound_gets keys : forall s, sound s -> sound (fst (pk_gets B s keys)) /\ forall l, snd (pk_gets B s keys) = Ok l -> Forall D l.
Proof.
  induction keys as [|k keys IH]; intros s Hs; cbn [pk_gets]; [split; [exact Hs|intros l E; injection E as <-; constructor]|].
  destruct (sound_read (rev k) s Hs) as [H1 H2]. unfold pk_get. destruct (pk_get_rev B (rev k) s) as [s1 v]. cbn [fst snd] in H1, H2. destruct v as [t|e]; [|split; [exact H1|discriminate]].
  destruct (IH s1 H1) as [H3 H4]. destruct (pk_gets B s1 keys) as [s2 l]. cbn [fst snd] in *. split; [exact H3|]. intros l' E. destruct l as [l|]; [|discriminate]. injection E as <-. constructor; auto.
Qed.
Lemma sound_init keys : forall s, sound s -> sound (fst (pk_init B s keys)).
Proof.
  induction keys as [|k keys IH]; intros s Hs; cbn [pk_init]; [exact Hs|].
  destruct (sound_read (rev k) s Hs) as [H1 H2]. unfold pk_get. destruct (pk_get_rev B (rev k) s) as [s1 v]. cbn [fst snd] in H1, H2. destruct v; [apply IH; exact H1|exact H1].
Qed.
Lemma sound_rec_node s l n : sound s -> sound (fst (pk_rec_node B s l n)).
Proof.
  intros Hs. unfold pk_rec_node. destruct (forallb _ _); [|exact Hs]. destruct (sound_gets (map (fun c => n ++ [c]) (be_letters B)) s Hs) as [H1 H2].
  destruct (pk_gets B s _) as [s1 rch]. cbn [fst snd] in H1, H2. destruct rch as [ch|e]; [|exact H1].
  destruct (rec_inv (p_be s1) ch (proj1 H1) (H2 ch eq_refl)) as [G1 G2]. destruct (be_rec B (p_be s1) ch) as [b rr]. cbn [fst snd] in G1, G2. cbv zeta.
  assert (Hs2 : sound (mkP (p_data s1) (p_max s1) b)) by (split; [exact G1|apply H1]).
  destruct rr as [r|e]; [|exact Hs2]. specialize (G2 r eq_refl). destruct (Nat.ltb 0 l).
  - destruct (sound_read (rev n) _ Hs2) as [H3 H4]. unfold pk_get. destruct (pk_get_rev B (rev n) _) as [s3 rn]. cbn [fst snd] in H3, H4. destruct rn as [nd|e]; [|exact H3]. cbn [rbind].
    destruct (be_crop B r nd) as [r'|e] eqn:Ec; [|exact H3]. cbn [fst]. split; [apply H3|]. cbn [pk_set p_data]. apply kset_D; [apply H3|]. eapply crop_inv; [exact G2|apply H4; reflexivity|exact Ec].
  - cbn [fst]. split; [exact G1|]. cbn [pk_set p_data]. apply kset_D; [apply H1|exact G2].
Qed.
Lemma sound_rec_nodes l nodes : forall s, sound s -> sound (fst (pk_rec_nodes B s l nodes)).
Proof.
  induction nodes as [|n nodes IH]; intros s Hs; cbn [pk_rec_nodes]; [exact Hs|]. pose proof (sound_rec_node s l n Hs) as H1. destruct (pk_rec_node B s l n) as [s1 v]. cbn [fst] in H1.
  destruct v; [apply IH; exact H1|exact H1].
Qed.
Lemma sound_rec_levels n : forall s, sound s -> sound (fst (pk_rec_levels B s n)).
Proof.
  induction n as [|n IH]; intros s Hs; cbn [pk_rec_levels]; [exact Hs|]. pose proof (sound_rec_nodes n (be_order B n) s Hs) as H1. destruct (pk_rec_nodes B s n _) as [s1 v]. cbn [fst] in H1.
  destruct v; [apply IH; exact H1|exact H1].
Qed.
(** the tensors handed to the object by an operation *)
Definition op_data (o : op (K := K)) : Prop := match o with OAssign _ v | OTransform v _ => D v | _ => True end.
Lemma sound_step s o : sound s -> op_data o -> sound (pk_step B s o).
Proof.
  intros Hs Ho. destruct o as [k|l|k v|k| |x ml]; cbn [pk_step op_data] in *.
  - apply sound_read; exact Hs.
  - apply sound_init; exact Hs.
  - split; [apply Hs|]. apply kset_D; [apply Hs|exact Ho].
  - unfold pk_del. destruct (kmem _ _); [|exact Hs]. cbn [fst]. split; [apply Hs|]. apply kdel_D, Hs.
  - unfold pk_reconstruct. destruct (p_max s); [apply sound_rec_levels; exact Hs|exact Hs].
  - unfold pk_transform. destruct ml as [m|]; [|destruct (be_maxlevel B x)]; (split; [apply Hs|repeat constructor; exact Ho]).
Qed.
Lemma sound_run h : Forall op_data h -> forall s, sound s -> sound (pk_run B s h).
Proof. intros Hh. induction Hh as [|o h Ho Hh IH]; intros s Hs; [exact Hs|]. cbn [pk_run fold_left]. apply IH. apply sound_step; assumption. Qed.
Lemma sound_new b : Inv b -> sound (pk_new B b).
Proof. intros H. split; [exact H|constructor]. Qed.
End Inv.

(** the dictionaries of transform objects *)
Section Cache.
Context {A X Y : Type}.
Variables (P : A -> Prop) (Q : X -> Prop) (new : result A) (call : A -> X -> A * result Y) (f : X -> result Y).
Hypothesis new_ok : forall x, Q x -> match new with Ok o => P o | Raise e => f x = Raise e end.
Hypothesis call_ok : forall o x, P o -> Q x -> snd (call o x) = f x /\ P (fst (call o x)).
Definition all_in (d : list (list nat * A)) : Prop := Forall (fun kv => P (snd kv)) d.
Lemma nget_in d n o : all_in d -> nget d n = Some o -> P o.
Proof. intros Hd. induction Hd as [|[k u] d Hu Hd IH]; cbn [nget]; [discriminate|]. destruct (list_eqb Nat.eqb k n); [intros E; injection E as <-; exact Hu|exact IH]. Qed.
Lemma nset_in d n o : all_in d -> P o -> all_in (nset d n o).
Proof. intros Hd Ho. induction Hd as [|[k u] d Hu Hd IH]; cbn [nset]; [repeat constructor; exact Ho|]. destruct (list_eqb Nat.eqb k n); constructor; auto. Qed.
Lemma cached_call_ok d n x : all_in d -> Q x -> snd (cached_call new call d n x) = f x /\ all_in (fst (cached_call new call d n x)).
Proof.
  intros Hd Hx. unfold cached_call. pose proof (new_ok x Hx) as Hnew. destruct (nget d n) as [o|] eqn:E.
  - pose proof (nget_in d n o Hd E) as Ho. destruct (call_ok o x Ho Hx) as [H1 H2]. destruct (call o x) as [o' r]. cbn [fst snd] in *. split; [exact H1|apply nset_in; assumption].
  - destruct new as [o|e]; [|cbn [fst snd]; auto]. destruct (call_ok o x Hnew Hx) as [H1 H2]. destruct (call o x) as [o' r]. cbn [fst snd] in *. split; [exact H1|apply nset_in; assumption].
Qed.
End Cache.

(** well-formedness of what postprocessing returns *)
Section WF.
Context {K : CRing}.
Implicit Types t u x : tensor K.
Ltac rb H := let x := fresh "x" in let H1 := fresh "H" in apply rbind_ok in H as (x & H1 & H).
Lemma wf_reshape t s u : wf t -> reshape t s = Ok u -> wf u.
Proof. unfold reshape, wf. intros Hw. destruct (Nat.eqb_spec (prodl (shp t)) (prodl s)) as [E|]; [|discriminate]. intros H. injection H as <-. cbn [shp dat]. congruence. Qed.
Lemma wf_squeeze0 t : wf t -> wf (squeeze t 0).
Proof.
  intros Hw. destruct (shp t) as [|n s] eqn:E; [unfold squeeze; rewrite E; exact Hw|]. apply wf_squeeze; [exact Hw|]. unfold rank. rewrite E. cbn. lia.
Qed.
Lemma wf_permute t p u : torch_permute t p = Ok u -> wf u.
Proof. unfold torch_permute. destruct (negb _); [discriminate|]. destruct (negb _); [discriminate|]. destruct (nodupb _); [|discriminate]. intros H. injection H as <-. apply wf_make. Qed.
Lemma postprocess_tensor_wf t n ds h y : wf t -> postprocess_tensor t n ds h = Ok y -> wf y.
Proof.
  intros Hw H. unfold postprocess_tensor in H. rb H. unfold postprocess_coeffs in H0. destruct (Nat.leb n 0); [discriminate|]. rb H0. rb H0.
  assert (G1 : exists u, pc_items x1 = [PT u] /\ wf u).
  { destruct (Nat.ltb _ n); [discriminate|]. destruct (Nat.eqb _ n).
    - cbn in H2. injection H2 as <-. cbn. eexists. split; [reflexivity|]. apply wf_squeeze0, Hw.
    - destruct (Nat.ltb _ _).
      + unfold coeff_tree_map in H2. cbn in H2. rb H2. injection H2 as <-. cbn. eexists. split; [reflexivity|]. eapply wf_reshape; [exact Hw|exact H3].
      + injection H2 as <-. cbn. eauto. }
  destruct G1 as (u & E & Hu). rb H0. destruct (list_eqb _ _ _).
  - injection H0 as <-. unfold pc_first in H. rewrite E in H. injection H as <-. exact Hu.
  - unfold coeff_tree_map in H0. rewrite E in H0. rb H0. cbn in H0. injection H0 as <-. cbn in H. injection H as <-.
    unfold undo_swap_axes in H4. rb H4. destruct (get_transpose_order _ _) as [fr bk]. eapply wf_permute; exact H4.
Qed.
Variable LA : linalg K.
Lemma mr_call_wf (r : mwaverec K) cs y : snd (mr_call LA r cs) = Ok y -> wf y.
Proof.
  unfold mr_call. destruct (let* pc := _ in _) as [[[ts ds] g]|]; [|discriminate]. destruct (if (_ || _)%bool then _ else _) as [r2 [e|]]; [discriminate|]. cbn [snd].
  destruct (map tT ts) as [|lo his]; [discriminate|]. intros H. rb H. eapply postprocess_tensor_wf; [|exact H]. apply wf_transpose.
Qed.
Lemma wf_of_cols t b h v u : of_cols t b h v = Ok u -> wf u.
Proof. unfold of_cols. intros H. rb H. injection H as <-. apply wf_transpose. Qed.
Lemma wf_batch_mm m t u : batch_mm m t = Ok u -> wf u.
Proof. unfold batch_mm. destruct (shp t) as [|b [|n [|k []]]]; try discriminate. destruct (negb _); [discriminate|]. intros H. rb H. rb H. rb H. injection H as <-. apply wf_transpose. Qed.
Lemma tree_map_len (c c' : pycoeffs K) f : coeff_tree_map c f = Ok c' -> List.length (pc_items c') = List.length (pc_items c).
Proof.
  intros Hc. unfold coeff_tree_map in Hc. destruct (pc_items c) as [|[t0| | |] rest]; try discriminate. apply rbind_ok in Hc as (a & _ & Hc). apply rbind_ok in Hc as (res & Hr & Hc).
  assert (Hl : List.length res = List.length rest).
  { clear Hc. revert res Hr. induction rest as [|q rest IH]; intros ys Hy; cbn [rmap] in Hy; [injection Hy as <-; reflexivity|]. rb Hy. rb Hy. injection Hy as <-. cbn. f_equal. eauto. }
  destruct res as [|[]]; injection Hc as <-; cbn in *; lia.
Qed.
Lemma preprocess_len (c c' : pycoeffs K) N h ch ds : preprocess_coeffs c N h ch = Ok (c', ds) -> List.length (pc_items c') = List.length (pc_items c).
Proof.
  unfold preprocess_coeffs. intros H. destruct (Nat.leb N 0); [discriminate|]. destruct (pc_items c) as [|v vs] eqn:Ei; [discriminate|]. rewrite <- Ei.
  rb H. destruct (negb _); [discriminate|]. rb H. rb H. rb H.
  assert (G1 : List.length (pc_items x2) = List.length (pc_items c)) by (destruct (list_eqb _ _ _); [injection H3 as <-; reflexivity|eapply tree_map_len; exact H3]).
  destruct (pc_items x2) as [|[t1| | |] rest] eqn:E2; try discriminate. rewrite <- E2 in G1. rb H.
  assert (G2 : List.length (pc_items x3) = List.length (pc_items x2)).
  { destruct (Nat.ltb _ N); [discriminate|]. destruct (Nat.eqb _ N); [eapply tree_map_len; exact H4|]. destruct (Nat.ltb _ _); [eapply tree_map_len; exact H4|injection H4 as <-; reflexivity]. }
  rb H. injection H as <- _. destruct ch; [apply tree_map_len in H5; lia|injection H5 as <-; lia].
Qed.
Lemma mr2_call_wf (r : mwaverecn K) a l y : snd (mr2_call LA r [PT a; PTup l]) = Ok y -> wf y.
Proof.
  unfold mr2_call. destruct (let* pc := _ in _) as [[[[items ds] g] hs]|] eqn:E0; [|discriminate].
  assert (Hl : List.length items = 2).
  { apply rbind_ok in E0 as ([c ds'] & Hp & E0). rb E0. rb E0. rb E0. injection E0 as <- _ _ _. apply preprocess_len in Hp. exact Hp. }
  destruct (prepare_rec_n LA r _ _ _) as [r' [e|]]; [discriminate|]. cbn [snd]. destruct items as [|[ll| | |] [|v [|]]]; try discriminate Hl; try discriminate. intros H. rb H.
  eapply postprocess_tensor_wf; [|exact H]. destruct (rev (rn_mats r')) as [|s_ rm]; cbn [mr2_loop] in H0; destruct v as [|[|lh [|hl [|hh []]]]| |]; try discriminate; (destruct (negb _); [discriminate|]); [discriminate|].
  rb H0. rb H0. injection H2 as <-. destruct rm; cbn [mr2_loop] in H0; injection H0 as <-.
  all: unfold mr2_level in H1; destruct (rn_sep r').
  all: destruct s_ as [|m1 [|m2 [|]]]; try discriminate; repeat (rb H1).
  all: first [eapply wf_batch_mm; exact H1|eapply wf_of_cols; exact H1|injection H1 as <-; apply wf_transpose].
Qed.
End WF.
