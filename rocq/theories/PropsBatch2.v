(** C70 and C66 for the boundary packets, C70 for the continuous transform. *)
From Coq Require Import List Arith ZArith QArith Lia Bool String Ascii Ring.
From Coq Require Import ZifyNat ZifyBool.
From Verif Require Import Base Sums Tensor TensorFacts Util Perm Plumb Accept Spec Conv1 Conv2 PadFacts CoreFacts AnalysisInv Synthesis Filters Wave1 Wave1Inv Rec1 Props1 RecN Sep SepFacts Lin Swt SpecSwt SwtFacts SwtDec SwtRec PropsSwt Packets SpecPk PacketFacts PacketConv PropsPk PropsNd Sparse SparseFacts SpecMat SpecMatN SparseMM LinAlg Mat1 MatN MatOrth Boundary MatPre Mat1Facts Mat1Call Tags PropsMat1 MatNFacts MatNLoop MatNSep MatNNon MatNCall PropsMatN PropsMatN2 PropsMatNon EnergyN Surj PropsSurj PacketsM PkInv SpecPkM PropsPkM PropsPkM2 Cwt SpecCwt CwtFacts PropsCwt PropsLin PropsBatch.
Import ListNotations.
Ltac Zify.zify_post_hook ::= Z.div_mod_to_equations.
Local Open Scope nat_scope.
Local Arguments Nat.div : simpl never.
Local Arguments Nat.modulo : simpl never.

Section PB2.
Context {K : CRing}.
Add Ring Kring : (cr_th K).
Local Open Scope K_scope.
Implicit Types (t u x y : tensor K).

Lemma node_lin2 (P : tensor K -> tensor K -> Prop) (G : tensor K -> tensor K -> tensor K) (f : tensor K -> result (list (tensor K))) letters x y :
  P x y -> (forall t t' ch ch', P t t' -> f t = Ok ch -> f t' = Ok ch' -> Forall2 P ch ch' /\ f (G t t') = Ok (map2 G ch ch')) ->
  forall p v v', node_at f letters x p = Ok v -> node_at f letters y p = Ok v' -> node_at f letters (G x y) p = Ok (G v v') /\ P v v'.
Proof.
  intros Pxy Hs. unfold node_at. intros p. induction (rev p) as [|c up IH]; intros v v' H H'; cbn [node_up] in *; [apply ok_inj in H; apply ok_inj in H'; subst; auto|].
  destruct (existsb (Ascii.eqb c) letters); [|discriminate]. apply rbind_ok in H as (u & Hu & H). apply rbind_ok in H as (ch & Hch & H). apply rbind_ok in H' as (u' & Hu' & H'). apply rbind_ok in H' as (ch' & Hch' & H').
  destruct (IH u u' Hu Hu') as (E & Pu). rewrite E. cbn [rbind]. destruct (Hs u u' ch ch' Pu Hch Hch') as (Fc & El). rewrite El. cbn [rbind].
  destruct (child letters ch c) as [g|] eqn:Eg; [|discriminate]. destruct (child letters ch' c) as [g'|] eqn:Eg'; [|discriminate]. apply ok_inj in H. apply ok_inj in H'. subst g g'.
  rewrite (child_map2 G letters ch ch' c v v' Eg Eg'). split; [reflexivity|]. clear - Fc Eg Eg'. revert ch ch' Fc Eg Eg'. induction letters as [|q l IH]; intros ch ch' Fc E E'; destruct Fc; try discriminate. cbn [child] in *. destruct (Ascii.eqb q c); [congruence|]. eapply IH; eassumption.
Qed.

Variable LA : linalg K.
Hypothesis HD : domain K.
Hypothesis HR : formally_real K.
Variables (w : wavelet K) (L : nat) (method : string).
Hypothesis HLA : la_ok LA method.
Hypothesis B : orthogonal_bank L (dec_lo w) (dec_hi w) (rec_lo w) (rec_hi w).
Hypothesis HI : boundary_independent L (dec_lo w) (dec_hi w).

Lemma two_of_inv (c : pycoeffs K) ch : two_of c = Ok ch -> exists a d, pc_items c = [PT a; PT d] /\ ch = [a; d].
Proof using.
  unfold two_of. destruct (pc_items c) as [|[a|?|?|] [|[d|?|?|] [|? ?]]]; try discriminate. intros H. apply ok_inj in H. subst. eauto.
Qed.
Lemma four_of_inv (c : pycoeffs K) ch : four_of c = Ok ch -> exists a h v d, pc_items c = [PT a; PTup [h; v; d]] /\ ch = [a; h; v; d].
Proof using.
  unfold four_of. intros H. destruct (pc_items c) as [|p0 [|p1 [|p2 ps]]]; try (destruct p0; discriminate); try discriminate.
  - destruct p0 as [a| | |]; try discriminate. destruct p1 as [|l| |]; try discriminate. destruct l as [|h [|v [|d [|? ?]]]]; try discriminate. apply ok_inj in H. subst. eauto 7.
  - destruct p0 as [a| | |]; try discriminate. destruct p1 as [|l| |]; try discriminate. destruct l as [|h [|v [|d [|? ?]]]]; discriminate.
Qed.
Lemma node1_facts axis t ch : wf t -> one_level1 LA w method axis t = Ok ch ->
  axis_ok (rank t) axis /\ exists o ox c a d, new_mwavedec w (Some 1%Z) (AxInt axis) method (Some (mode_name Mzero)) = Ok o /\ mw_call LA o t = (ox, Ok c) /\ pc_items c = [PT a; PT d] /\ ch = [a; d] /\
   Forall (fun u => wf u /\ ttag u = ttag t /\ shp u = updn (norm_axis (rank t) axis) (even_up (nth (norm_axis (rank t) axis) (shp t) 0%nat) / 2)%nat (shp t)) ch.
Proof using All.
  intros Hw H. pose proof H as H0. unfold one_level1 in H. apply rbind_ok in H as (n0 & Hs & H). apply rbind_ok in H as (o & Ho & H). apply rbind_ok in H as (c & Hc & H). destruct (mw_call LA o t) as [ox rc] eqn:E. cbn [snd] in Hc. subst rc.
  destruct (two_of_inv c ch H) as (a & d & Hi & ->).
  destruct (one_level1_inv LA HD HR w L method HLA B HI axis (ttag t) t [a; d] (conj Hw eq_refl) H0) as (Hdt & Hax & _ & Hch & _).
  split; [exact Hax|]. exists o, ox, c, a, d. repeat (split; [assumption || reflexivity|]). rewrite Hch. apply Forall_forall. intros u Hu. apply in_map_iff in Hu as (q & <- & _).
  destruct (letter1_data (ttag t) (fun k => mget (Am LA w method (ttag t) k)) (norm_axis (rank t) axis) q t (conj Hw eq_refl)) as [D1 D2]. split; [exact D1|]. split; [exact D2|]. apply letter1_shp.
Qed.
Lemma level2_facts axes sep t ch : wf t -> List.length axes = 2%nat -> one_level2 LA w method axes sep t = Ok ch ->
  axes_ok (rank t) axes /\ let nax := map (norm_axis (rank t)) axes in
  exists o ox c a h v d, new_mwavedecn 2 w (Some 1%Z) (AxSeq axes) method (Some (mode_name Mzero)) sep = Ok o /\ mw2_call LA o t = (ox, Ok c) /\ pc_is_list c = false /\ pc_items c = [PT a; PTup [h; v; d]] /\ ch = [a; h; v; d] /\
   Forall (fun u => wf u /\ ttag u = ttag t /\ shp u = upds nax (map (fun n => even_up n / 2)%nat (gather nax 0%nat (shp t))) (shp t)) ch.
Proof using All.
  intros Hw Hl H. unfold one_level2 in H. apply rbind_ok in H as (n0 & Hs & H). apply rbind_ok in H as (o & Ho & H). apply rbind_ok in H as (c & Hc & H). destruct (mw2_call LA o t) as [ox rc] eqn:E. cbn [snd] in Hc. subst rc.
  destruct (four_of_inv c ch H) as (a & h & v & d & Hi & ->). pose proof Ho as Ho0. apply new_mwn_inv in Ho as [_ ->].
  assert (Q : axes_ok (rank t) axes /\ exists M ks J, c = bwn2_coeffs M Mzero (map (norm_axis (rank t)) axes) ks J t).
  { destruct sep.
    - destruct (sep_outcome LA HD HR w L method Mzero HLA B HI (Some 1%Z) axes t ox c Hw Hl E) as (_ & Hax & lev & _ & _ & Hc). split; [exact Hax|]. eauto.
    - destruct (non_outcome LA HD HR w L method HLA B HI Mzero (Some 1%Z) axes t ox c Hw Hl E) as (_ & Hax & lev & _ & _ & Hc). split; [exact Hax|]. eauto. }
  destruct Q as (Hax & M & ks & J & ->). split; [exact Hax|]. intros nax. exists (mkMWN w (Some 1%Z) axes method (Some (mode_name Mzero)) sep None [] [] false []), ox. do 5 eexists. split; [exact Ho0|]. split; [exact E|]. split; [reflexivity|]. split; [exact Hi|]. split; [reflexivity|].
  unfold bwn2_coeffs in Hi. cbn [pc_items] in Hi. fold nax in Hi. destruct J as [|[|J]]; [discriminate| |cbn [seq rev app] in Hi; rewrite !map_app in Hi; apply (f_equal (@List.length _)) in Hi; cbn [List.length] in Hi; rewrite !app_length in Hi; cbn [List.length map] in Hi; lia].
  cbn [seq rev app map] in Hi. unfold bwn_approx in Hi. cbn [Nat.iter nat_rect] in Hi. injection Hi as Ha Hd.
  constructor; [rewrite <- Ha; split; [apply wf_make|split; reflexivity]|]. rewrite <- Hd. apply Forall_forall. intros u Hu. apply in_map_iff in Hu as (q & <- & _). split; [apply wf_make|split; reflexivity].
Qed.

(** the nodes of a boundary packet tree are linear in the signal *)
Theorem C66_boundary_packets_1d axis x y p v v' a b : wf x -> wf y -> shp y = shp x -> ttag y = ttag x ->
  node_at (one_level1 LA w method axis) ["a"; "d"]%char x p = Ok v -> node_at (one_level1 LA w method axis) ["a"; "d"]%char y p = Ok v' ->
  node_at (one_level1 LA w method axis) ["a"; "d"]%char (tlin a b x y) p = Ok (tlin a b v v').
Proof using All.
  intros Wx Wy S T H H'.
  apply (node_lin2 (fun t t' => wf t /\ wf t' /\ shp t' = shp t /\ ttag t' = ttag t) (tlin a b) (one_level1 LA w method axis) ["a"; "d"]%char x y) with (p := p) (v := v) (v' := v'); auto.
  clear - HD HR HLA B HI. intros t t' ch ch' (Wt & Wt' & St & Tt) E E'.
  destruct (node1_facts axis t ch Wt E) as (Hax & o & ox & c & ca & cd & Ho & Eo & Ec & Hch & F). destruct (node1_facts axis t' ch' Wt' E') as (Hax' & o' & ox' & c' & ca' & cd' & Ho' & Eo' & Ec' & Hch' & F').
  assert (o' = o) by congruence. subst o' ch ch'. assert (Hr : rank t' = rank t) by (unfold rank; rewrite St; reflexivity).
  pose proof (C66_matrix_1d LA HD HR w L method Mzero HLA B HI (Some 1%Z) axis o t t' ox ox' c c' a b Wt Wt' St Tt Ho Eo Eo') as El.
  split.
  - rewrite Hr, St, Tt in F'. inversion F as [|? ? (A1 & A2 & A3) F2]. inversion F2 as [|? ? (B1 & B2 & B3) _]. inversion F' as [|? ? (A1' & A2' & A3') F2']. inversion F2' as [|? ? (B1' & B2' & B3') _]. subst.
    repeat (apply Forall2_cons; [repeat split; assumption || congruence|]). constructor.
  - unfold one_level1. rewrite shape_at_ok by exact Hax. cbn [rbind]. rewrite (Ho : new_mwavedec w (Some 1%Z) (AxInt axis) method (Some "zero"%string) = Ok o). cbn [rbind]. rewrite El. cbn [rbind]. unfold two_of, pc_lin. cbn [pc_items]. rewrite Ec, Ec'. reflexivity.
Qed.
Theorem C66_boundary_packets_2d axes sep x y p v v' a b : wf x -> wf y -> shp y = shp x -> ttag y = ttag x -> List.length axes = 2%nat ->
  node_at (one_level2 LA w method axes sep) ["a"; "h"; "v"; "d"]%char x p = Ok v -> node_at (one_level2 LA w method axes sep) ["a"; "h"; "v"; "d"]%char y p = Ok v' ->
  node_at (one_level2 LA w method axes sep) ["a"; "h"; "v"; "d"]%char (tlin a b x y) p = Ok (tlin a b v v').
Proof using All.
  intros Wx Wy S T Hl H H'.
  apply (node_lin2 (fun t t' => wf t /\ wf t' /\ shp t' = shp t /\ ttag t' = ttag t) (tlin a b) (one_level2 LA w method axes sep) ["a"; "h"; "v"; "d"]%char x y) with (p := p) (v := v) (v' := v'); auto.
  clear - HD HR HLA B HI Hl. intros t t' ch ch' (Wt & Wt' & St & Tt) E E'.
  destruct (level2_facts axes sep t ch Wt Hl E) as (Hax & o & ox & c & ca & chh & cv & cd & Ho & Eo & _ & Ec & Hch & F). destruct (level2_facts axes sep t' ch' Wt' Hl E') as (Hax' & o' & ox' & c' & ca' & chh' & cv' & cd' & Ho' & Eo' & _ & Ec' & Hch' & F').
  assert (o' = o) by congruence. subst o' ch ch'. assert (Hr : rank t' = rank t) by (unfold rank; rewrite St; reflexivity).
  assert (El : snd (mw2_call LA o (tlin a b t t')) = Ok (pc_lin a b c c')).
  { destruct sep; [exact (C66_matrix_2d LA HD HR w L method Mzero HLA B HI (Some 1%Z) axes o t t' ox ox' c c' a b Wt Wt' St Tt Ho Eo Eo')|exact (C66_matrix_2d_nonseparable LA HD HR w L method Mzero HLA B HI (Some 1%Z) axes o t t' ox ox' c c' a b Wt Wt' St Tt Ho Eo Eo')]. }
  split.
  - rewrite Hr, St, Tt in F'. set (T := ttag t) in *. set (S := upds _ _ (shp t)) in *. clearbody S T. clear - F F'.
    remember [ca; chh; cv; cd] as l eqn:Hl. remember [ca'; chh'; cv'; cd'] as l' eqn:Hl'. assert (Hlen : List.length l = List.length l') by (subst; reflexivity). clear Hl Hl'. revert l' F' Hlen.
    induction l as [|q l IH]; intros [|q' l'] F' Hlen; try discriminate; [constructor|]. inversion F as [|? ? (A1 & A2 & A3) F2]; subst. inversion F' as [|? ? (A1' & A2' & A3') F2']; subst.
    apply Forall2_cons; [repeat split; assumption || congruence|]. apply IH; auto.
  - unfold one_level2. rewrite swap_axes_ok by exact Hax. cbn [rbind]. rewrite (Ho : new_mwavedecn 2 w (Some 1%Z) (AxSeq axes) method (Some "zero"%string) sep = Ok o). cbn [rbind]. rewrite El. cbn [rbind]. unfold four_of, pc_lin. cbn [pc_items]. rewrite Ec, Ec'. reflexivity.
Qed.
(** and batch independent *)
Theorem C70_boundary_packets_1d axis x p v : wf x -> axis_ok (rank x) axis ->
  node_at (one_level1 LA w method axis) ["a"; "d"]%char x p = Ok v ->
  let ax := norm_axis (rank x) axis in
  forall idx, fib_ok [ax] idx (shp x) -> node_at (one_level1 LA w method (-1)%Z) ["a"; "d"]%char (fibre [ax] idx x) p = Ok (fibre [ax] idx v).
Proof using All.
  intros Wx Hax0 H ax idx Hf.
  apply (node_fibre (fun t => wf t /\ rank t = rank x /\ fib_ok [ax] idx (shp t)) (fibre [ax] idx) (one_level1 LA w method axis)); auto.
  intros t ch (Wt & Rt & Ft) E. destruct (node1_facts axis t ch Wt E) as (Hax & o & ox & c & ca & cd & Ho & Eo & Ec & Hch & F).
  destruct (C70_matrix_1d LA HD HR w L method Mzero HLA B HI (Some 1%Z) axis o t ox c Wt Ho Eo) as (o1 & Ho1 & El). rewrite Rt in *. fold ax in El, F. specialize (El idx Ft). split.
  - eapply Forall_impl; [|exact F]. cbv beta. intros u (W & T & S). split; [exact W|]. unfold rank in *. rewrite S, updn_length. split; [exact Rt|]. apply (fib_ok_shape [ax] idx (shp t) [_]). exact Ft.
  - unfold one_level1. rewrite shape_at_ok by (rewrite rank_fibre; unfold axis_ok; cbn; lia). cbn [rbind]. rewrite (Ho1 : new_mwavedec w (Some 1%Z) (AxInt (-1)%Z) method (Some "zero"%string) = Ok o1). cbn [rbind]. rewrite El. cbn [rbind]. unfold two_of, pc_map. cbn [pc_items]. rewrite Ec, Hch. reflexivity.
Qed.
Theorem C70_boundary_packets_2d axes sep x p v : wf x -> List.length axes = 2%nat -> axes_ok (rank x) axes ->
  node_at (one_level2 LA w method axes sep) ["a"; "h"; "v"; "d"]%char x p = Ok v ->
  let nax := map (norm_axis (rank x)) axes in
  forall idx, fib_ok nax idx (shp x) -> node_at (one_level2 LA w method [-2; -1]%Z sep) ["a"; "h"; "v"; "d"]%char (fibre nax idx x) p = Ok (fibre nax idx v).
Proof using All.
  intros Wx Hl Hax0 H nax idx Hf. assert (Hn : List.length nax = 2%nat) by (unfold nax; rewrite map_length; exact Hl).
  apply (node_fibre (fun t => wf t /\ rank t = rank x /\ fib_ok nax idx (shp t)) (fibre nax idx) (one_level2 LA w method axes sep)); auto.
  intros t ch (Wt & Rt & Ft) E. destruct (level2_facts axes sep t ch Wt Hl E) as (Hax & o & ox & c & ca & chh & cv & cd & Ho & Eo & _ & Ec & Hch & F). cbv zeta in F.
  assert (El : exists o1, new_mwavedecn 2 w (Some 1%Z) (AxSeq [-2; -1]%Z) method (Some (mode_name Mzero)) sep = Ok o1 /\ forall idx, fib_ok (map (norm_axis (rank t)) axes) idx (shp t) -> snd (mw2_call LA o1 (fibre (map (norm_axis (rank t)) axes) idx t)) = Ok (pc_map (fibre (map (norm_axis (rank t)) axes) idx) c)).
  { destruct sep; [exact (C70_matrix_2d LA HD HR w L method Mzero HLA B HI (Some 1%Z) axes o t ox c Wt Ho Eo)|exact (C70_matrix_2d_nonseparable LA HD HR w L method Mzero HLA B HI (Some 1%Z) axes o t ox c Wt Ho Eo)]. }
  destruct El as (o1 & Ho1 & El). rewrite Rt in *. fold nax in El, F. specialize (El idx Ft). split.
  - eapply Forall_impl; [|exact F]. cbv beta. intros u (W & T & S). split; [exact W|]. unfold rank in *. rewrite S, upds_length. split; [exact Rt|]. apply fib_ok_shape. exact Ft.
  - unfold one_level2. rewrite swap_axes_ok by (rewrite rank_fibre, Hn; apply (default_axes_ok 2 2); lia). cbn [rbind]. rewrite (Ho1 : new_mwavedecn 2 w (Some 1%Z) (AxSeq [-2; -1]%Z) method (Some "zero"%string) sep = Ok o1). cbn [rbind]. rewrite El. cbn [rbind]. unfold four_of, pc_map. cbn [pc_items]. rewrite Ec, Hch. reflexivity.
Qed.
End PB2.

(** ** the continuous transform: cwt of one row is that row of cwt *)
Section PB2C.
Context {K : CRing}.
Theorem C70_cwt (C : cplx K) kind ap psi x step width data (scales : list Q) out :
  cplx_ok C -> wavelet_values ap psi x -> increasing_grid x step width -> psi <> [] ->
  wf data -> (1 <= rank data)%nat -> (1 <= tlast data)%nat -> (forall s, In s scales -> (0 < s)%Q) ->
  cwt C data scales kind ap = Ok out -> let ax := (rank data - 1)%nat in
  forall idx, fib_ok [ax] idx (shp data) ->
  exists out1, cwt C (fibre [ax] idx data) scales kind ap = Ok out1 /\ wf out1 /\ shp out1 = [List.length scales; tlast data] /\
    forall i k, (i < List.length scales)%nat -> (k < tlast data)%nat -> get out1 [i; k] = get out (i :: updn ax k idx).
Proof.
  intros HC Ha Hx Hpsi W Hr Hn Hs E ax idx Hf.
  assert (Hne : scales <> []).
  { intros ->. unfold cwt in E. apply rbind_ok in E as ([[ip o] xx] & Ei & E). destruct o; [discriminate|]. cbn in E. discriminate. }
  assert (Hax : (ax < rank data)%nat) by (unfold ax; lia).
  assert (Hr1 : rank (fibre [ax] idx data) = 1%nat) by apply rank_fibre. assert (Hs1 : shp (fibre [ax] idx data) = [tlast data]) by reflexivity.
  assert (Hl1 : tlast (fibre [ax] idx data) = tlast data) by (unfold tlast at 1; rewrite Hr1, Hs1; reflexivity).
  destruct (C46_cwt C kind ap psi x step width HC Ha Hx Hpsi data scales) as [[_ X]|[HF (o & X & W1 & S1 & G)]]; auto; [congruence|]. assert (o = out) by congruence. subst o.
  destruct (C46_cwt C kind ap psi x step width HC Ha Hx Hpsi (fibre [ax] idx data) scales) as [[XE _]|[_ (o2 & X2 & W2 & S2 & G2)]]; auto; try lia; [apply wf_fibre| |].
  - exfalso. apply Exists_exists in XE as (s & Hin & Hs2). rewrite Forall_forall in HF. exact (HF s Hin Hs2).
  - exists o2. split; [exact X2|]. split; [exact W2|]. split; [rewrite S2, Hs1; reflexivity|]. intros i k Hi Hk.
    destruct (int_psi_scale_ok psi x step width (nth i scales 0%Q) (grid_of x step width Hx) (Hs _ (nth_In _ _ Hi)) Hpsi) as (M & HM & _).
    assert (Hlen : (ax < List.length idx)%nat) by (destruct Hf as [Hf _]; rewrite Hf; exact Hax).
    assert (Hv : forall j, (j < tlast data)%nat -> valid (updn ax j idx) (shp data)).
    { intros j Hj. apply (fib_valid [ax] idx (shp data) [j]); auto; [apply (good_axes1 _ _ Hax)|intros d [<-|[]]; exact Hax|]. repeat constructor. exact Hj. }
    rewrite (G2 i M [k] Hi HM) by (rewrite Hs1; repeat constructor; exact Hk). rewrite (G i M _ Hi HM) by (apply Hv, Hk). fold ax. rewrite Hr1, Hl1, nth_updn_eq by exact Hlen. cbn [Nat.sub nth].
    f_equal. apply cwt_value_ext; [reflexivity|]. intros j Hj. cbn [updn]. unfold fibre. rewrite get_make by (repeat constructor; exact Hj). cbn [upds]. rewrite updn_updn. reflexivity.
Qed.
End PB2C.
