(** fswaverecn computes the n-d inverse transform; what it leaves in the caller's dictionaries. *)
From Coq Require Import List Arith ZArith Lia Bool String Ascii.
From Coq Require Import ZifyNat ZifyBool.
From Verif Require Import Base Sums Tensor TensorFacts Util Perm Plumb Accept Spec Spec2 SpecSep Conv1 PadFacts CoreFacts Analysis AnalysisInv PRKernel Synthesis Filters Wave1 Wave1Inv Rec1 Rec1Inv Lin Conv2 WaveN RecN Sep SepFacts SepRec SepRec2.
Import ListNotations.
Ltac Zify.zify_post_hook ::= Z.div_mod_to_equations.

Section SR3.
Context {K : CRing}.
Add Ring Kring : (cr_th K).
Implicit Types t u x A B lo : tensor K.
Implicit Types w : wavelet K.
Implicit Types Y : string -> tensor K.
Implicit Types levels : list (list (tensor K)).
Implicit Types ds : list (sdict (K := K)).

(** a dictionary with the detail tensors l (in the order of [detail_keys N]), possibly also an entry aa..a *)
Definition dict_lvl (N : nat) (d : sdict (K := K)) (l : list (tensor K)) : Prop :=
  map (dict_get d) (detail_keys N) = map Some l /\ forall s, In s (map fst d) -> ad_word s /\ String.length s = N.

Lemma slice_small g s (f : list nat -> K) s' : Forall2 le s' s -> slice_to (tmake g s f) s' = Ok (tmake g s' f).
Proof.
  intros H. unfold slice_to. unfold rank. rewrite shp_make. cbn [ttag tmake]. pose proof (F2_len _ _ _ H) as Hl.
  destruct (Nat.ltb_spec (List.length s) (List.length s')) as [Hlt|_]; [lia|]. f_equal. rewrite Hl, skipn_all, app_nil_r.
  assert (E : map2 Nat.min s' s = s') by (clear Hl; induction H as [|a b s' s Hab H IH]; cbn; [reflexivity|]; rewrite IH; f_equal; lia).
  rewrite E. apply make_ext. intros idx Hv. rewrite get_make; [reflexivity|].
  clear - H Hv. unfold valid in *. revert idx Hv. induction H as [|a b s' s Hab H IH]; intros idx Hv; inversion Hv; subst; constructor; [lia|]. apply IH. assumption.
Qed.

Lemma upds_le : forall nax o' o s, Forall2 le o' o -> Forall2 le (upds nax o' s) (upds nax o s).
Proof.
  assert (R : forall s, Forall2 le s s) by (induction s; constructor; auto).
  assert (U : forall s s' a v v', v' <= v -> Forall2 le s' s -> Forall2 le (updn a v' s') (updn a v s)).
  { intros s s' a v v' Hv H. revert a. induction H as [|p q s' s Hpq H IH]; intros [|a]; cbn; constructor; auto. }
  induction nax as [|a nax IH]; intros o' o s H; cbn; [apply R|]. destruct H as [|p q o' o Hpq H]; [apply R|]. apply U; auto.
Qed.

Lemma detail_keys_spec N s : In s (detail_keys N) <-> ad_word s /\ String.length s = N /\ s <> akey N.
Proof.
  pose proof (words_NoDup N EmptyString) as Hn. rewrite words_cons in Hn. inversion Hn as [|? ? Hni _]; subst.
  assert (Hw : In s (words N EmptyString) <-> ad_word s /\ String.length s = N).
  { rewrite words_spec by constructor. split; [intros (p & -> & Hp & Ha); rewrite append_nil; auto|]. intros [Ha Hl]. exists s. rewrite append_nil. auto. }
  rewrite words_cons in Hw. cbn [In] in Hw. split.
  - intros H. destruct (proj1 Hw (or_intror H)) as [Ha Hl]. repeat split; auto. intros ->. contradiction.
  - intros (Ha & Hl & Hne). destruct (proj2 Hw (conj Ha Hl)) as [<-|H]; [congruence|exact H].
Qed.
Lemma detail_keys_ne N : 1 <= N -> detail_keys N <> [].
Proof.
  intros HN E. assert (H : In (String "d" (akey (N - 1))) (detail_keys N)).
  { apply detail_keys_spec. repeat split.
    - apply ad_cons. auto using akey_ad.
    - cbn [String.length]. rewrite akey_length. lia.
    - destruct N; [lia|]. discriminate. }
  rewrite E in H. exact H.
Qed.

Lemma lvl_get N (d : sdict (K := K)) l s : dict_lvl N d l -> In s (detail_keys N) -> exists v, dict_get d s = Some v /\ In v l.
Proof.
  intros [H _] Hs. apply (in_map (dict_get d)) in Hs. rewrite H in Hs. apply in_map_iff in Hs as (v & E & Hv). eauto.
Qed.
Lemma max_key_lvl N (d : sdict (K := K)) l : 1 <= N -> dict_lvl N d l -> max_key d = Ok N.
Proof.
  intros HN Hl. pose proof (detail_keys_ne N HN) as Hne.
  destruct (detail_keys N) as [|s ks] eqn:E; [congruence|].
  destruct (lvl_get N d l s Hl) as (v & Hv & _); [rewrite E; now left|]. destruct Hl as [_ Hk].
  unfold max_key. destruct d as [|kv d]; [discriminate|]. f_equal.
  assert (G : forall d, d <> [] -> (forall s, In s (map fst d) -> String.length s = N) -> fold_right Nat.max 0 (map (fun kv : string * tensor K => String.length (fst kv)) d) = N).
  { clear. induction d as [|[q u] d IH]; intros Hd H; [congruence|]. cbn [map fold_right fst]. rewrite (H q) by now left.
    destruct d as [|kv d]; [cbn; lia|]. rewrite IH; [lia|discriminate|]. intros s Hs. apply H. now right. }
  apply G; [discriminate|]. intros q Hq. apply Hk. exact Hq.
Qed.
Lemma max_key_set N (d : sdict (K := K)) v : max_key d = Ok N -> max_key (dict_set d (akey N) v) = Ok N.
Proof.
  intros H. assert (G : forall d : sdict (K := K), d <> [] -> fold_right Nat.max 0 (map (fun kv => String.length (fst kv)) (dict_set d (akey N) v))
     = Nat.max N (fold_right Nat.max 0 (map (fun kv => String.length (fst kv)) d))).
  { clear. induction d as [|[q u] d IH]; intros Hd; [congruence|]. cbn [dict_set]. destruct (String.eqb_spec q (akey N)) as [->|Hq].
    - cbn [map fold_right fst]. rewrite akey_length. lia.
    - cbn [map fold_right fst]. destruct d as [|kv d]; [cbn; rewrite akey_length; lia|]. rewrite IH by discriminate. lia. }
  unfold max_key in *. destruct d as [|kv d]; [discriminate|].
  assert (H' : fold_right Nat.max 0 (map (fun kv : string * tensor K => String.length (fst kv)) (kv :: d)) = N) by congruence.
  specialize (G (kv :: d) ltac:(discriminate)). rewrite H' in G.
  destruct (dict_set (kv :: d) (akey N) v) as [|kv' d'] eqn:E; [destruct kv; cbn in E; destruct (String.eqb _ _); discriminate|].
  f_equal. rewrite G. lia.
Qed.
Lemma dict_set_twice (d : sdict (K := K)) k v v' : dict_set (dict_set d k v) k v' = dict_set d k v'.
Proof.
  induction d as [|[q u] d IH]; cbn; [rewrite String.eqb_refl; reflexivity|]. destruct (String.eqb_spec q k) as [->|Hq]; cbn.
  - rewrite String.eqb_refl. reflexivity.
  - rewrite (proj2 (String.eqb_neq q k) Hq), IH. reflexivity.
Qed.
(** running the loop again on the updated dictionaries gives the same *)
Lemma loop_again w ds : forall big r ds', sep_rec_loop w big ds = (Ok r, ds') -> sep_rec_loop w big ds' = (Ok r, ds').
Proof.
  induction ds as [|d ds IH]; intros big r ds' H; cbn [sep_rec_loop] in H; [injection H as <- <-; reflexivity|].
  destruct (max_key d) as [n|] eqn:En; [|discriminate].
  destruct (sep_idwtn (S n) (dict_set d (akey n) big) w) as [a|] eqn:Ea; [|discriminate].
  destruct (sep_rec_loop w a ds) as [r0 ds0] eqn:El. injection H as -> <-. cbn [sep_rec_loop].
  rewrite (max_key_set n d big En), dict_set_twice, Ea, (IH a r ds0 El). reflexivity.
Qed.


Lemma sep_rec_loop_ok w L N : 1 <= N -> List.length (rec_lo w) = L -> List.length (rec_hi w) = L -> 2 <= L ->
  forall levels ds A big, wf A -> rank A = S N -> is_dtype_supported (tdtype A) = true ->
  slice_to big (shp A) = Ok A -> wf big -> rank big = S N -> ttag big = ttag A ->
  Forall2 (dict_lvl N) ds levels -> coeffs_fit (List.length (detail_keys N)) (seq 1 N) L A levels ->
  exists ds', sep_rec_loop w big ds = (Ok (match levels with [] => big | _ => recN_spec L (chansW N (rec_lo w) (rec_hi w)) (seq 1 N) A levels end), ds') /\
    Forall2 (fun d d' => exists v, d' = dict_set d (akey N) v /\ wf v /\ rank v = S N /\ ttag v = ttag A) ds ds'.
Proof.
  intros HN H1 H2 HL. induction levels as [|l levels IH]; intros ds A big Hw Hr Hd Hsl Hwb Hrb Htb Hds [Hlev Hfit].
  { inversion Hds; subst. exists []. split; [reflexivity|constructor]. }
  inversion Hds as [|d ? ds0 ? Hdl Hds0]; subst. clear Hds. set (L := List.length (rec_lo w)) in *. rename ds0 into ds.
  cbn [map sizes_fit] in Hfit. destruct Hfit as (Hk & Hk1 & Hrest). inversion Hlev as [|? ? [(Hll & Hdw & Heq) Htag] Hlev']; subst. clear Hlev.
  assert (Hg : good_axes (rank A) (seq 1 N)) by (rewrite Hr; apply good_seq1).
  assert (Hshp : Forall (fun t => wf t /\ shp t = shp A /\ ttag t = ttag A) l).
  { rewrite Forall_forall in Hdw, Htag |- *. intros t Ht. destruct (Hdw t Ht) as (D1 & D2 & D3). split; [exact D1|]. split; [|auto].
    apply (shp_eq_fsz (seq 1 N)); auto. destruct l as [|h l]; [destruct Ht|]. cbn [lsizes] in Hk. rewrite (Heq t h); [exact Hk|exact Ht|left; reflexivity]. }
  rewrite Forall_forall in Hshp.
  cbn [sep_rec_loop]. rewrite (max_key_lvl N d l HN Hdl).
  set (Y := fun s => if String.eqb s (akey N) then A else match dict_get d s with Some v => v | None => A end).
  set (Yd := fun s => if String.eqb s (akey N) then big else match dict_get d s with Some v => v | None => A end).
  assert (HYl : map Y (detail_keys N) = l).
  { assert (E : map Some (map Y (detail_keys N)) = map Some l).
    { rewrite <- (proj1 Hdl), map_map. apply map_ext_in. intros s Hs. pose proof Hs as Hs'. apply detail_keys_spec in Hs' as (_ & _ & Hne). unfold Y.
      rewrite (proj2 (String.eqb_neq _ _) Hne). destruct (lvl_get N d l s Hdl Hs) as (v & -> & _). reflexivity. }
    clear - E. revert E. generalize (map Y (detail_keys N)). induction l as [|b l IH]; intros [|a l'] E; try discriminate; [reflexivity|].
    cbn in E. injection E as -> E. rewrite (IH l' E). reflexivity. }
  assert (HYA : Y (akey N) = A) by (unfold Y; rewrite String.eqb_refl; reflexivity).
  assert (HYok : forall s, ad_word s -> String.length s = N -> wf (Y s) /\ shp (Y s) = shp A /\ ttag (Y s) = ttag A).
  { intros s Hs Hl. destruct (String.eqb_spec s (akey N)) as [->|Hne]; [rewrite HYA; auto|].
    apply Hshp. rewrite <- HYl. apply in_map. apply detail_keys_spec. auto. }
  assert (Hh : holds N Yd (dict_set d (akey N) big)).
  { split.
    - intros s Hs Hl. rewrite dict_get_set. unfold Yd. rewrite String.eqb_sym. destruct (String.eqb_spec s (akey N)) as [->|Hne]; [reflexivity|].
      destruct (lvl_get N d l s Hdl) as (v & -> & _); [apply detail_keys_spec; auto|reflexivity].
    - intros s Hs. apply dict_set_keys in Hs as [->|Hs]; [split; [apply akey_ad|apply akey_length]|apply Hdl; exact Hs]. }
  assert (Hidwt : sep_idwtn (S N) (dict_set d (akey N) big) w
     = Ok (idwtN L (chansW N (rec_lo w) (rec_hi w)) (seq 1 N) A l (map (fun n => 2 * n + 2 - L) (gather (seq 1 N) 0 (shp A))))).
  { pose proof (sep_idwtn_ok N Yd Y (dict_set d (akey N) big) w L N (ttag A) (shp A) (S N)) as G. replace (S N - N) with 1 in G by lia.
    rewrite G; try lia; auto.
    - rewrite idwtW_N, HYA, HYl. reflexivity.
    - intros s Hs Hl.
      assert (Hnd : String.eqb (String "d" s) (akey N) = false) by (destruct N; [lia|]; apply String.eqb_neq; discriminate).
      split; [unfold Yd, Y; rewrite Hnd; reflexivity|].
      destruct (String.eqb_spec (String "a" s) (akey N)) as [E|Hne].
      + rewrite E, HYA. unfold Yd. rewrite String.eqb_refl. exact Hsl.
      + assert (E : Yd (String "a" s) = Y (String "a" s)) by (unfold Yd, Y; rewrite (proj2 (String.eqb_neq _ _) Hne); reflexivity).
        rewrite E. destruct (HYok (String "a" s)) as (A1 & A2 & A3); [apply ad_cons; auto|cbn; lia|]. rewrite <- A2. apply slice_to_id. exact A1. }
  rewrite Hidwt. cbn [recN_spec].
  set (of := map (fun n => 2 * n + 2 - L) (gather (seq 1 N) 0 (shp A))). set (big' := idwtN _ _ _ _ _ of).
  assert (Hlof : List.length of = List.length (seq 1 N)) by (unfold of; rewrite map_length, gather_length; reflexivity).
  destruct (idwtN_facts L (chansW N (rec_lo w) (rec_hi w)) (seq 1 N) A l of Hg Hlof) as (Z1 & Z2 & Z3 & Z4 & Z5). fold big' in Z1, Z2, Z3, Z4, Z5.
  set (on := recN_outs L (seq 1 N) A levels). set (A' := idwtN _ _ _ _ _ on).
  assert (Hon : Forall2 le on of /\ List.length on = List.length (seq 1 N)).
  { unfold on, recN_outs, of. destruct levels as [|e rest]; [|destruct e as [|h e]]; try (split; [|rewrite map_length, gather_length; reflexivity];
      generalize (map (fun k => 2 * k + 2 - L) (gather (seq 1 N) 0 (shp A))); clear; induction l; constructor; auto).
    cbn [map lsizes] in Hrest. destruct Hrest as [Hf _]. split; [|rewrite gather_length; reflexivity].
    revert Hf. generalize (gather (seq 1 N) 0 (shp A)) (gather (seq 1 N) 0 (shp h)). clear. intros ks ns H. induction H; cbn; constructor; auto. lia. }
  destruct Hon as [Hon Hlon].
  destruct (idwtN_facts L (chansW N (rec_lo w) (rec_hi w)) (seq 1 N) A l on Hg Hlon) as (W1 & W2 & W3 & W4 & W5). fold A' in W1, W2, W3, W4, W5.
  destruct (IH ds A' big') as (ds' & E1 & E2); auto; try congruence.
  - unfold big', A', idwtN, idwt_axes. cbn [nth shp tmake]. apply slice_small. apply upds_le. exact Hon.
  - split; [rewrite W2, W3, W4; exact Hlev'|]. rewrite W5. destruct levels as [|e rest]; [exact I|]. unfold on, recN_outs.
    destruct (Forall_inv Hlev') as [(Hz & _) _]. destruct e as [|h e]; [exfalso; cbn in Hz; pose proof (detail_keys_ne N HN); destruct (detail_keys N); [congruence|discriminate]|].
    cbn [map lsizes] in Hrest. apply Hrest.
  - rewrite E1. eexists. split.
    + f_equal. f_equal. destruct levels as [|e rest]; [|reflexivity]. unfold A', big', on, recN_outs. reflexivity.
    + constructor; [exists big; auto|]. rewrite W3 in E2. exact E2.
Qed.

(** * from preprocessed tensors to the caller's *)
Lemma idwtN_pre L (fs : list (list (list K))) nax lo (l : list (tensor K)) outs N : 1 <= List.length fs -> List.length fs = S (List.length l) ->
  List.length nax = N -> good_axes (rank lo) nax -> wf lo -> Forall (fun t => wf t /\ shp t = shp lo) l -> List.length outs = N ->
  idwtN L fs (seq 1 N) (pre_t nax lo) (map (pre_t nax) l) outs = pre_t nax (idwtN L fs nax lo l outs).
Proof.
  intros Hf Hl Hn Hg Hw Hall Ho. unfold idwtN.
  rewrite (idwt_post L (List.length fs) _ nax (fun c => nth c (lo :: l) lo) outs (rank lo)); auto; [| |lia].
  2:{ intros c Hc. cbn [nth]. rewrite Forall_forall in Hall. destruct c as [|c]; [auto|]. apply Hall. apply nth_In. lia. }
  cbn [nth]. unfold core_syn, idwt_axes. cbn [nth pre_t shp ttag].
  rewrite gather_seq1 by (rewrite gather_length; exact Hn). rewrite upds_seq1 by (rewrite ?gather_length; auto).
  apply make_ext. intros idx Hv. destruct idx as [|i idx]; [inversion Hv|]. apply valid_cons_inv in Hv as [Hi Hv].
  assert (Hli : List.length idx = N) by (apply valid_length in Hv; lia). cbn [hd tl]. rewrite gather_seq1 by exact Hli.
  apply sumf_ext. intros c Hc. unfold idwt_op. apply sumI_ext. intros ks Hks. f_equal.
  rewrite upds_seq1 by (auto; apply valid_length in Hks; rewrite gather_length in Hks; lia). f_equal.
  destruct c as [|c]; [reflexivity|]. apply map_nth.
Qed.

Lemma fsz_seq1 N b (s : list nat) : List.length s = N -> fsz (seq 1 N) (b :: s) = [b].
Proof.
  intros H. unfold fsz, front_of. cbn [List.length]. rewrite H. cbn [seq filter].
  replace (memn 0 (seq 1 N)) with false by (symmetry; apply not_true_is_false; rewrite memn_spec, in_seq; lia). cbn [negb].
  replace (filter (fun d => negb (memn d (seq 1 N))) (seq 1 N)) with (@nil nat); [reflexivity|].
  symmetry. assert (G : forall l l' : list nat, (forall d, In d l' -> In d l) -> filter (fun d => negb (memn d l)) l' = []).
  { intros l. induction l' as [|a l' IH]; intros Hin; [reflexivity|]. cbn. rewrite (proj2 (memn_spec a l)) by (apply Hin; now left). cbn. apply IH. intros d Hd. apply Hin. now right. }
  apply G. auto.
Qed.

Lemma fit_pre C nax L N lo levels : List.length nax = N -> good_axes (rank lo) nax ->
  coeffs_fit C nax L lo levels -> coeffs_fit C (seq 1 N) L (pre_t nax lo) (map (map (pre_t nax)) levels).
Proof.
  intros Hn Hg [H1 H2].
  assert (Hsz : forall t, gather (seq 1 N) 0 (shp (pre_t nax t)) = gather nax 0 (shp t)) by (intros t; cbn [pre_t shp]; apply gather_seq1; rewrite gather_length; exact Hn).
  assert (Hfz : forall t, fsz (seq 1 N) (shp (pre_t nax t)) = [prodl (fsz nax (shp t))]) by (intros t; cbn [pre_t shp]; apply fsz_seq1; rewrite gather_length; exact Hn).
  assert (Hrk : forall t, rank (pre_t nax t) = S N) by (intros t; unfold rank; cbn [pre_t shp List.length]; rewrite gather_length; lia).
  split.
  - apply Forall_map. eapply Forall_impl; [|exact H1]. cbv beta. intros l [(L1 & L2 & L3) T]. split.
    + split; [rewrite map_length; exact L1|]. split.
      * apply Forall_map. eapply Forall_impl; [|exact L2]. cbv beta. intros t (W & R & F). rewrite Hrk, Hrk, !Hfz, F. split; [apply pre_t_wf; rewrite R; exact Hg|auto].
      * intros t t' Ht Ht'. apply in_map_iff in Ht as (u & <- & Hu). apply in_map_iff in Ht' as (u' & <- & Hu'). cbn [pre_t shp]. rewrite (L3 u u' Hu Hu'). reflexivity.
    + apply Forall_map. eapply Forall_impl; [|exact T]. intros t E. exact E.
  - rewrite Hsz, map_map. rewrite (map_ext _ (lsizes nax)); [exact H2|]. intros [|h l]; [reflexivity|]. cbn [map lsizes]. apply Hsz.
Qed.

Lemma recN_pre L (fs : list (list (list K))) nax N : 2 <= List.length fs -> List.length nax = N -> forall levels lo,
  wf lo -> good_axes (rank lo) nax -> coeffs_fit (List.length fs - 1) nax L lo levels ->
  recN_spec L fs (seq 1 N) (pre_t nax lo) (map (map (pre_t nax)) levels) = pre_t nax (recN_spec L fs nax lo levels) /\
  wf (recN_spec L fs nax lo levels) /\ rank (recN_spec L fs nax lo levels) = rank lo /\ ttag (recN_spec L fs nax lo levels) = ttag lo /\
  fsz nax (shp (recN_spec L fs nax lo levels)) = fsz nax (shp lo).
Proof.
  intros Hf Hn. induction levels as [|l levels IH]; intros lo Hw Hg [Hlev Hfit]; [cbn; auto|].
  cbn [map recN_spec sizes_fit] in *. destruct Hfit as (Hk & Hk1 & Hrest). inversion Hlev as [|? ? [(Hll & Hdw & Heq) Htag] Hlev']; subst.
  assert (Hshp : Forall (fun t => wf t /\ shp t = shp lo) l).
  { rewrite Forall_forall in Hdw, Htag |- *. intros t Ht. destruct (Hdw t Ht) as (D1 & D2 & D3). split; [exact D1|].
    apply (shp_eq_fsz nax); auto. destruct l as [|h l]; [destruct Ht|]. cbn [lsizes] in Hk. rewrite (Heq t h); [exact Hk|exact Ht|left; reflexivity]. }
  assert (Ho : recN_outs L (seq 1 (List.length nax)) (pre_t nax lo) (map (map (pre_t nax)) levels) = recN_outs L nax lo levels).
  { unfold recN_outs. destruct levels as [|[|h e] rest]; cbn [map]; cbn [pre_t shp]; rewrite gather_seq1 by (rewrite gather_length; reflexivity); reflexivity. }
  rewrite Ho. set (outs := recN_outs L nax lo levels).
  assert (Hlo : List.length outs = List.length nax) by (unfold outs, recN_outs; destruct levels as [|[|h e] rest]; rewrite ?map_length, gather_length; reflexivity).
  rewrite idwtN_pre by (auto; lia). destruct (idwtN_facts L fs nax lo l outs Hg Hlo) as (Z1 & Z2 & Z3 & Z4 & Z5). set (lo' := idwtN L fs nax lo l outs) in *.
  destruct (IH lo') as (I1 & I2 & I3 & I4 & I5); auto.
  - rewrite Z2. exact Hg.
  - split; [rewrite Z2, Z3, Z4; exact Hlev'|]. rewrite Z5. destruct levels as [|e rest]; [exact I|]. unfold outs, recN_outs.
    inversion Hlev' as [|? ? [(Hz & _) _] _]; subst. destruct e as [|h e]; [cbn in Hz; lia|]. cbn [map lsizes] in Hrest. apply Hrest.
  - rewrite I1, I3, I4, I5, Z2, Z3, Z4. auto.
Qed.

Definition dmap (f : tensor K -> tensor K) (d : sdict (K := K)) : sdict := map (fun kv => (fst kv, f (snd kv))) d.
Lemma dmap_get f d k : dict_get (dmap f d) k = option_map f (dict_get d k).
Proof. induction d as [|[q u] d IH]; cbn; [reflexivity|]. destruct (String.eqb q k); [reflexivity|exact IH]. Qed.
Lemma dmap_keys f d : map fst (dmap f d) = map fst d.
Proof. unfold dmap. rewrite map_map. reflexivity. Qed.
Lemma dict_lvl_map f N d l : dict_lvl N d l -> dict_lvl N (dmap f d) (map f l).
Proof.
  intros [H1 H2]. split; [|rewrite dmap_keys; exact H2].
  rewrite (map_ext _ (fun k => option_map f (dict_get d k))) by (intros; apply dmap_get).
  rewrite <- (map_map (dict_get d) (option_map f)), H1, !map_map. reflexivity.
Qed.
Lemma rmap_as_dict ds : rmap as_dict (map PDict ds) = Ok ds.
Proof. induction ds as [|d ds IH]; cbn; [reflexivity|]. rewrite IH. reflexivity. Qed.

Definition sep_coeffs lo ds : pycoeffs K := mkPC false (PT lo :: map PDict ds).
Lemma sep_regular lo ds : pc_regular (sep_coeffs lo ds).
Proof. unfold pc_regular, sep_coeffs. cbn. split; [apply Forall_map, Forall_forall; intros; exact I|]. destruct ds; cbn; auto. Qed.
Lemma sep_tensors lo ds t : In t (pc_tensors (sep_coeffs lo ds)) <-> t = lo \/ exists d, In d ds /\ In t (map snd d).
Proof.
  unfold pc_tensors, sep_coeffs. cbn [pc_items flat_map pv_tensors app In]. rewrite in_flat_map. split.
  - intros [<-|(v & Hv & Ht)]; [auto|]. apply in_map_iff in Hv as (d & <- & Hd). right. exists d. auto.
  - intros [->|(d & Hd & Ht)]; [auto|]. right. exists (PDict d). split; [apply in_map; exact Hd|exact Ht].
Qed.
Lemma sep_map f lo ds : pc_map f (sep_coeffs lo ds) = sep_coeffs (f lo) (map (dmap f) ds).
Proof. unfold pc_map, sep_coeffs. cbn. rewrite !map_map. reflexivity. Qed.

(** the dictionaries fit: keys, tags, shapes *)
Definition dicts_fit (N : nat) (nax : list nat) (L : nat) lo ds levels : Prop :=
  Forall2 (dict_lvl N) ds levels /\
  (forall d t, In d ds -> In t (map snd d) -> wf t /\ rank t = rank lo /\ ttag t = ttag lo) /\
  coeffs_fit (List.length (detail_keys N)) nax L lo levels.

Lemma chansW_length N rlo rhi : 1 <= N -> 2 <= List.length (chansW (K := K) N rlo rhi) /\ List.length (chansW (K := K) N rlo rhi) - 1 = List.length (detail_keys N).
Proof.
  intros HN. unfold chansW. rewrite map_length, words_cons. cbn [List.length]. pose proof (detail_keys_ne N HN). destruct (detail_keys N); [congruence|]. cbn. lia.
Qed.

Lemma fswaverecn_eff_ok lo ds levels w L N h axes : 1 <= N -> wf lo -> is_dtype_supported (tdtype lo) = true ->
  hint_axes h N = Some axes -> List.length axes = N -> axes_ok (rank lo) axes ->
  List.length (rec_lo w) = L -> List.length (rec_hi w) = L -> 2 <= L ->
  let nax := map (norm_axis (rank lo)) axes in
  dicts_fit N nax L lo ds levels ->
  exists ds', fswaverecn_eff (sep_coeffs lo ds) w N h
    = (Ok (recN_spec L (chansW N (rec_lo w) (rec_hi w)) nax lo levels),
       if pre_aliases (sep_coeffs lo ds) N h then sep_coeffs lo ds' else sep_coeffs lo ds) /\
    (pre_aliases (sep_coeffs lo ds) N h = true ->
       Forall2 (fun d d' => exists v, d' = dict_set d (akey N) v /\ wf v /\ rank v = rank lo /\ ttag v = ttag lo) ds ds' /\
       exists r, sep_rec_loop w lo ds = (Ok r, ds')).
Proof.
  intros HN Hw Hd Hh Hla Hax H1 H2 HL nax (Hdl & Hin & Hfit).
  pose proof (good_axes_ok _ _ Hax) as Hg. fold nax in Hg.
  assert (Hn : List.length nax = N) by (unfold nax; rewrite map_length; exact Hla).
  assert (Hall : forall t, In t (pc_tensors (sep_coeffs lo ds)) -> wf t /\ rank t = rank lo /\ ttag t = ttag lo).
  { intros t Ht. apply sep_tensors in Ht as [->|(d & Hd' & Ht)]; [auto|]. apply (Hin d t Hd' Ht). }
  unfold fswaverecn_eff.
  assert (Hpre : preprocess_coeffs (sep_coeffs lo ds) N h false = Ok (pc_map (pre_t nax) (sep_coeffs lo ds), fsz nax (shp lo) ++ gather nax 0 (shp lo))).
  { apply (preprocess_coeffs_ok (sep_coeffs lo ds) N h axes (rank lo) false); auto using sep_regular; try lia. intros t Ht. destruct (Hall t Ht) as (A & B & _). auto. }
  rewrite Hpre. rewrite sep_map. set (A := pre_t nax lo). set (dsA := map (dmap (pre_t nax)) ds).
  rewrite (check_same_reg _ (ttag lo)); [|apply sep_regular|].
  2:{ intros t Ht. unfold A, dsA in Ht. rewrite <- sep_map, pc_map_tensors in Ht. apply in_map_iff in Ht as (u & <- & Hu). apply Hall in Hu. cbn. tauto. }
  assert (HwA : wf A) by (apply pre_t_wf; exact Hg).
  assert (HrA : rank A = S N) by (unfold rank, A; cbn [pre_t shp List.length]; rewrite gather_length; lia).
  destruct (chansW_length N (rec_lo w) (rec_hi w) HN) as [C1 C2].
  destruct (sep_rec_loop_ok w L N HN H1 H2 HL (map (map (pre_t nax)) levels) dsA A A) as (ds' & E1 & E2); auto.
  { apply slice_to_id. exact HwA. }
  { unfold dsA. clear - Hdl. induction Hdl as [|d l ds levels H Hdl IH]; cbn; constructor; auto. apply dict_lvl_map. exact H. }
  { apply (fit_pre _ nax L N); auto. }
  rewrite <- C2 in Hfit.
  destruct (recN_pre L (chansW N (rec_lo w) (rec_hi w)) nax N C1 Hn levels lo Hw Hg Hfit) as (R1 & R2 & R3 & R4 & R5).
  set (z := recN_spec L (chansW N (rec_lo w) (rec_hi w)) nax lo levels) in *.
  assert (Hz : match map (map (pre_t nax)) levels with [] => A | _ => recN_spec L (chansW N (rec_lo w) (rec_hi w)) (seq 1 N) A (map (map (pre_t nax)) levels) end = pre_t nax z).
  { destruct levels as [|l levels]; [reflexivity|]. exact R1. }
  rewrite Hz in E1. unfold sep_waverecn, sep_coeffs at 1. cbn [pc_items pc_is_list]. rewrite rmap_as_dict, E1. cbn [rbind].
  assert (Hpost : postprocess_tensor (pre_t nax z) N (fsz nax (shp lo) ++ gather nax 0 (shp lo)) h = Ok z).
  { rewrite (postprocess_tensor_ok _ N h axes (rank lo)); auto; try lia.
    - fold nax. rewrite <- R5. rewrite post_pre; auto. rewrite R3. exact Hg.
    - rewrite fsz_length by exact Hg. rewrite Hn. reflexivity.
    - apply pre_t_wf. rewrite R3. exact Hg.
    - exists (gather nax 0 (shp z)). cbn [pre_t shp]. rewrite R5. split; [reflexivity|]. rewrite gather_length. exact Hn. }
  rewrite Hpost. destruct (pre_aliases (sep_coeffs lo ds) N h) eqn:Eal.
  2:{ exists ds'. split; [reflexivity|discriminate]. }
  assert (Hsame : A = lo /\ dsA = ds).
  { unfold pre_aliases in Eal. unfold preprocess_coeffs in Hpre. destruct (Nat.leb_spec N 0); [lia|]. cbn [sep_coeffs pc_items check_if_tensor rbind] in Hpre.
    rewrite (ensure_axes_ok h N axes (rank lo) Hh Hax) in Eal, Hpre. cbn [sep_coeffs pc_items] in Eal. destruct (get_default_axes N) as [dax|]; [|discriminate].
    apply andb_true_iff in Eal as [Ea Er]. cbn [rbind] in Hpre. apply Nat.eqb_eq in Er. unfold rank in Er. rewrite Ea in Hpre.
    unfold first_dtype in Hpre. rewrite Hd in Hpre. cbn [negb rbind sep_coeffs pc_items] in Hpre.
    rewrite (proj2 (Nat.ltb_ge (List.length (shp lo)) N)) in Hpre by lia. rewrite (proj2 (Nat.eqb_neq (List.length (shp lo)) N)) in Hpre by lia.
    rewrite (proj2 (Nat.ltb_ge (N + 1) (List.length (shp lo)))) in Hpre by lia. cbn [rbind] in Hpre.
    fold (sep_coeffs lo ds) in Hpre. rewrite sep_map in Hpre. fold A in Hpre. fold dsA in Hpre.
    assert (G : forall a b : result (pycoeffs K * list nat), a = b -> match a, b with Ok (p, _), Ok (q, _) => p = q | _, _ => True end) by (intros a b ->; destruct b as [[? ?]|]; auto).
    apply G in Hpre. unfold sep_coeffs in Hpre. apply (f_equal (@pc_items K)) in Hpre. cbn [pc_items] in Hpre.
    assert (P1 : PT lo = PT A :> pyval K) by congruence. assert (P2 : map PDict ds = map PDict dsA :> list (pyval K)) by congruence. split; [congruence|].
    clear - P2. revert P2. generalize dsA. induction ds as [|d ds IH]; intros [|d' ds'] H; try discriminate; [reflexivity|]. cbn in H. injection H as -> H. rewrite (IH ds' H). reflexivity. }
  destruct Hsame as [EA Eds]. exists ds'. rewrite EA. split; [reflexivity|]. intros _.
  rewrite Eds in E2, E1. rewrite EA in E1. split.
  - assert (HrS : S N = rank lo) by (rewrite <- HrA, EA; reflexivity). rewrite HrS in E2. exact E2.
  - exists (pre_t nax z). exact E1.
Qed.

Theorem fswaverecn_ok lo ds levels w L N h axes : 1 <= N -> wf lo -> is_dtype_supported (tdtype lo) = true ->
  hint_axes h N = Some axes -> List.length axes = N -> axes_ok (rank lo) axes ->
  List.length (rec_lo w) = L -> List.length (rec_hi w) = L -> 2 <= L ->
  let nax := map (norm_axis (rank lo)) axes in
  dicts_fit N nax L lo ds levels ->
  fswaverecn (sep_coeffs lo ds) w N h = Ok (recN_spec L (chansW N (rec_lo w) (rec_hi w)) nax lo levels).
Proof.
  intros HN Hw Hd Hh Hla Hax H1 H2 HL nax Hf. unfold fswaverecn.
  destruct (fswaverecn_eff_ok lo ds levels w L N h axes HN Hw Hd Hh Hla Hax H1 H2 HL Hf) as (ds' & E & _). rewrite E. reflexivity.
Qed.

(** a second call on whatever the first one left behind gives the same result and changes nothing more *)
Theorem fswaverecn_twice lo ds levels w L N h axes c' r : 1 <= N -> wf lo -> is_dtype_supported (tdtype lo) = true ->
  hint_axes h N = Some axes -> List.length axes = N -> axes_ok (rank lo) axes ->
  List.length (rec_lo w) = L -> List.length (rec_hi w) = L -> 2 <= L ->
  dicts_fit N (map (norm_axis (rank lo)) axes) L lo ds levels ->
  fswaverecn_eff (sep_coeffs lo ds) w N h = (r, c') -> fswaverecn_eff c' w N h = (r, c').
Proof.
  intros HN Hw Hd Hh Hla Hax H1 H2 HL Hf Heff.
  destruct (fswaverecn_eff_ok lo ds levels w L N h axes HN Hw Hd Hh Hla Hax H1 H2 HL Hf) as (ds' & E & Hal). rewrite Heff in E.
  destruct (pre_aliases (sep_coeffs lo ds) N h) eqn:Eal; injection E as -> ->; [|exact Heff].
  destruct (Hal eq_refl) as (F & r0 & Hloop). clear Hal. set (nax := map (norm_axis (rank lo)) axes) in *.
  destruct Hf as (Hdl & Hin & Hfit).
  assert (Hf' : dicts_fit N nax L lo ds' levels).
  { split; [|split; [|exact Hfit]].
    - clear - F Hdl HN. revert levels Hdl. induction F as [|d d' ds ds' (v & -> & _) F IH]; intros levels H; inversion H as [|? l ? ? [G1 G2] Hr]; subst; constructor; auto.
      split.
      + rewrite <- G1. apply map_ext_in. intros s Hs. rewrite dict_get_set. apply detail_keys_spec in Hs as (_ & _ & Hne).
        rewrite String.eqb_sym, (proj2 (String.eqb_neq _ _) Hne). reflexivity.
      + intros s Hs. apply dict_set_keys in Hs as [->|Hs]; [split; [apply akey_ad|apply akey_length]|auto].
    - clear - F Hin. intros d t Hd Ht. induction F as [|d0 d1 ds ds' (v & -> & W & R & T) F IH]; [destruct Hd|].
      destruct Hd as [<-|Hd]; [|apply IH; auto; intros d2 t2 H2; apply Hin; now right].
      assert (G : In t (map snd (dict_set d0 (akey N) v)) -> t = v \/ In t (map snd d0)).
      { clear. induction d0 as [|[q u] d0 IH]; cbn; [intuition|]. destruct (String.eqb q (akey N)); cbn; intuition. }
      destruct (G Ht) as [->|H]; [auto|]. apply (Hin d0); [now left|exact H]. }
  destruct (fswaverecn_eff_ok lo ds' levels w L N h axes HN Hw Hd Hh Hla Hax H1 H2 HL Hf') as (ds2 & E2 & Hal2).
  assert (Eal' : pre_aliases (sep_coeffs lo ds') N h = true) by exact Eal. rewrite Eal' in E2, Hal2.
  destruct (Hal2 eq_refl) as (_ & r1 & Hl2). rewrite (loop_again w ds lo r0 ds' Hloop) in Hl2. injection Hl2 as _ <-. exact E2.
Qed.

End SR3.
