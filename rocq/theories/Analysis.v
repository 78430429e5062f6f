(** The analysis step: pad + strided convolution = one DWT level, in N dimensions. *)
From Coq Require Import List Arith ZArith Lia Bool String Permutation.
From Coq Require Import ZifyNat ZifyBool.
From Verif Require Import Base Sums Tensor TensorFacts Util Perm Plumb Spec Conv1 PadFacts CoreFacts.
Import ListNotations.
Ltac Zify.zify_post_hook ::= Z.div_mod_to_equations.

Section An.
Context {K : CRing}.
Add Ring Kring : (cr_th K).
Implicit Types t u x : tensor K.

Definition core_dwt (fs : list (list K)) (m : mode) t : tensor K :=
  core (map2 (fun f n => dwt_len (List.length f) n) fs) (dwt_op fs m) t.

Lemma get_pad_eq n L : 2 <= L -> get_pad n L = (L - 2, L - 2 + n mod 2).
Proof. intros H. unfold get_pad. f_equal; lia. Qed.

Lemma adm_padok m L n : 2 <= L -> admissible m L n -> padok m n (get_pad n L).
Proof.
  intros HL. rewrite get_pad_eq by exact HL. unfold admissible, padok. cbn [fst snd].
  destruct m; intros H; try exact I; lia.
Qed.

Lemma adm_size m L n : 2 <= L -> admissible m L n -> 2 < n + L.
Proof. intros HL. unfold admissible. destruct m; lia. Qed.

Lemma dwt_sizes (fs : list (list K)) L s : List.length fs = List.length s -> Forall (fun f => List.length f = L) fs ->
  map2 (fun f n => dwt_len (List.length f) n) fs s = map (dwt_len L) s.
Proof.
  intros Hl Hf. revert s Hl. induction Hf as [|f fs Hf0 Hf IH]; intros [|n s] Hl; cbn in *; try lia; [reflexivity|].
  rewrite Hf0, IH by lia. reflexivity.
Qed.

Lemma map2_map_r {A B C D} (f : A -> B -> C) (g : D -> B) l l' : map2 f l (map g l') = map2 (fun a d => f a (g d)) l l'.
Proof. revert l'; induction l as [|a l IH]; intros [|b l']; cbn; auto. rewrite IH. reflexivity. Qed.

Lemma map_repeat_len {A} (fs : list (list A)) L D : List.length fs = D -> Forall (fun f => List.length f = L) fs ->
  map (@List.length A) fs = repeat L D.
Proof.
  intros <- H. induction H as [|f fs Hf0 Hf IH]; cbn; [reflexivity|]. rewrite Hf0, IH. reflexivity.
Qed.

Lemma analysis_conv (fs : nat -> list (list K)) m b s u filt C L :
  wf u -> shp u = b :: s -> 1 <= List.length s <= 3 -> 2 <= L -> Nat.even L = true ->
  Forall (admissible m L) s -> shp filt = C :: 1 :: repeat L (List.length s) ->
  (forall c, c < C -> List.length (fs c) = List.length s /\ Forall (fun f => List.length f = L) (fs c)) ->
  (forall c js, c < C -> valid js (repeat L (List.length s)) ->
     get filt (c :: 0 :: js) = taps (fs c) (map (fun j => L - 1 - j) js)) ->
  exists p res, pad_dispatch (unsqueeze u 1) (rev (map (fun n => get_pad n L) s)) (emode m) = Ok p /\
    conv_nd 2 1 p filt = Ok res /\ nth 1 (shp res) 0 = C /\
    split1 res 1 = map (fun c => unsqueeze (core_dwt (fs c) m u) 1) (seq 0 C).
Proof.
  intros Hw Hs HD HL Heven Hadm Hfs Hfl Hft.
  set (D := List.length s) in *.
  assert (Hsu : shp (unsqueeze u 1) = [b; 1] ++ s) by (cbn; unfold insertn; rewrite Hs; reflexivity).
  assert (Hpads : List.length (map (fun n => get_pad n L) s) = D) by apply map_length.
  exists (padded m (map (fun n => get_pad n L) s) (unsqueeze u 1)).
  assert (Hdis : pad_dispatch (unsqueeze u 1) (rev (map (fun n => get_pad n L) s)) (emode m)
                 = Ok (padded m (map (fun n => get_pad n L) s) (unsqueeze u 1))).
  { apply (pad_dispatch_ok m _ [b; 1] s).
    - apply wf_unsqueeze. exact Hw.
    - exact Hsu.
    - rewrite Hpads. reflexivity.
    - right. reflexivity.
    - lia.
    - clear - Hadm HL. induction Hadm as [|n s Hn Hadm IH]; cbn; constructor; auto. apply adm_padok; assumption. }
  set (pads := map (fun n => get_pad n L) s) in *.
  assert (Hk : rank (unsqueeze u 1) - List.length pads = 2).
  { unfold rank. rewrite Hsu, app_length, Hpads. change (List.length s) with D. cbn [List.length]. lia. }
  assert (Hsp : shp (padded m pads (unsqueeze u 1)) = b :: 1 :: pad_shape s pads).
  { unfold padded. rewrite shp_make, Hk, Hsu. reflexivity. }
  assert (Hps : pad_shape s pads = map (fun n => L - 2 + n + (L - 2 + n mod 2)) s).
  { unfold pads, pad_shape. clear - HL. induction s as [|n s IH]; [reflexivity|].
    cbn [map map2]. rewrite IH, get_pad_eq by exact HL. reflexivity. }
  assert (Hos : map2 (fun n k => conv_out n k 2 1) (pad_shape s pads) (repeat L D) = map (dwt_len L) s).
  { rewrite Hps. unfold D. clear - HL Heven Hadm. apply Nat.even_spec in Heven. destruct Heven as [h Hh].
    induction Hadm as [|n s Hn Hadm IH]; cbn; [reflexivity|]. f_equal; [|exact IH].
    apply adm_size in Hn; [|exact HL]. unfold conv_out, dwt_len. lia. }
  assert (Hconv : conv_nd 2 1 (padded m pads (unsqueeze u 1)) filt =
     Ok (tmake (ttag (padded m pads (unsqueeze u 1))) (b :: C :: map (dwt_len L) s)
          (fun idx => match idx with
             | ib :: co :: os =>
                 sumf 1 (fun ci => sumI (repeat L D) (fun js =>
                   kmul (get (padded m pads (unsqueeze u 1)) (ib :: ci :: map2 (fun o j => o * 2 + j * 1) os js))
                        (get filt (co :: ci :: js))))
             | _ => kzero end))).
  { unfold conv_nd. rewrite Hsp, Hfs.
    assert (Hlp : List.length (pad_shape s pads) = D) by (unfold pad_shape; rewrite map2_length, Hpads; fold D; lia).
    rewrite Hlp, repeat_length, Nat.eqb_refl. cbn [Nat.eqb andb].
    replace (forallb _ _) with true.
    - cbn [andb]. rewrite Hos. reflexivity.
    - symmetry. rewrite Hps. unfold D. clear - HL Hadm Heven. apply Nat.even_spec in Heven. destruct Heven as [h Hh].
      induction Hadm as [|n s Hn Hadm IH]; cbn [map repeat List.length map2 forallb]; [reflexivity|].
      rewrite IH, andb_true_r. apply adm_size in Hn; [|exact HL].
      apply andb_true_iff. split; apply Nat.ltb_lt; lia. }
  eexists. split; [exact Hdis|]. split; [exact Hconv|]. split; [reflexivity|].
  unfold split1. rewrite shp_make. cbn [nth].
  apply map_ext_in. intros c Hc. apply in_seq in Hc.
  destruct (Hfl c ltac:(lia)) as [Hlc Hfc].
  set (res := tmake _ _ _).
  assert (Hosz : map2 (fun f n => dwt_len (List.length f) n) (fs c) s = map (dwt_len L) s)
    by (apply dwt_sizes; [fold D; exact Hlc|exact Hfc]).
  assert (Hsc : shp (core_dwt (fs c) m u) = b :: map (dwt_len L) s).
  { unfold core_dwt. rewrite shp_core, Hs. cbn [hd tl]. rewrite Hosz. reflexivity. }
  assert (Hsuc : shp (unsqueeze (core_dwt (fs c) m u) 1) = b :: 1 :: map (dwt_len L) s).
  { unfold unsqueeze, insertn. cbn [shp]. rewrite Hsc. reflexivity. }
  apply t_ext.
  - apply wf_make.
  - apply wf_unsqueeze. apply wf_core.
  - reflexivity.
  - cbn [narrow shp tmake]. rewrite Hsuc. reflexivity.
  - intros idx Hv. change (shp (narrow res 1 c 1)) with (b :: 1 :: map (dwt_len L) s) in Hv.
    inversion Hv as [|ib b' r1 s1 Hib Hv1 E1 E2]; subst idx b' s1.
    inversion Hv1 as [|z one ks s1 Hz Hks E1 E2]; subst r1 one s1.
    assert (z = 0) as -> by lia.
    rewrite get_narrow by exact Hv. cbn [nth updn Nat.add].
    unfold res at 1. rewrite get_make by (constructor; [assumption|constructor; [lia|assumption]]).
    cbn [sumf].
    change (ib :: 0 :: ks) with ([ib] ++ 0 :: ks).
    rewrite (get_unsqueeze (core_dwt (fs c) m u) 1 [ib] ks); [|reflexivity|unfold rank; rewrite Hsc; cbn; lia].
    cbn [app]. unfold core_dwt. rewrite get_core; rewrite Hs; cbn [hd tl]; [|exact Hib|rewrite Hosz; exact Hks].
    unfold dwt_op. rewrite (map_repeat_len (fs c) L D Hlc Hfc).
    rewrite sumI_rev.
    match goal with |- kadd kzero ?a = ?b => transitivity a; [ring|] end.
    apply sumI_ext. intros js Hjs.
    assert (Hrj : valid (map (fun j => L - 1 - j) js) (repeat L D)).
    { apply valid_repeat in Hjs. apply valid_repeat. rewrite map_length. split; [apply Hjs|].
      intros j Hj. apply in_map_iff in Hj as (j' & <- & Hj'). lia. }
    rewrite Hft by (try lia; exact Hrj).
    pose proof (valid_length _ _ Hks) as Hkl. rewrite map_length in Hkl. fold D in Hkl.
    pose proof (proj1 (valid_repeat _ _ _) Hjs) as [Hjl Hjlt].
    assert (Htap : map (fun j => L - 1 - j) (map (fun j => L - 1 - j) js) = js).
    { rewrite map_map. rewrite <- (map_id js) at 2. apply map_ext_in. intros j Hj. specialize (Hjlt j Hj). lia. }
    rewrite Htap.
    assert (Hpi : valid (map2 (fun o j => o * 2 + j * 1) ks (map (fun j => L - 1 - j) js)) (pad_shape s pads)).
    { rewrite Hps. clear - Hks Hjs HL Heven. apply Nat.even_spec in Heven. destruct Heven as [h Hh].
      unfold D in *. clear D. revert ks js Hks Hjs. induction s as [|n s IH]; intros ks js Hks Hjs.
      - inversion Hks; subst. constructor.
      - cbn in *. inversion Hks as [|k k' ks' kk Hk Hks']; subst. inversion Hjs as [|j j' js' jj Hj Hjs']; subst.
        cbn. constructor; [|apply IH; assumption]. unfold dwt_len in Hk. lia. }
    unfold padded at 1. rewrite (get_make (ttag (unsqueeze u 1))).
    2:{ rewrite Hk, Hsu. cbn [firstn skipn app]. constructor; [assumption|]. constructor; [lia|exact Hpi]. }
    rewrite Hk, Hsu. cbn [firstn skipn app].
    replace (pad_zs (map2 (fun o j => o * 2 + j * 1) ks (map (fun j => L - 1 - j) js)) pads)
       with (map2 (fun k j => (2 * Z.of_nat k + 1 - Z.of_nat j)%Z) ks js).
    + rewrite (ext_get_ext m s _ (fun is => get u (ib :: is))).
      * ring.
      * rewrite map2_length. fold D. lia.
      * clear - Hadm HL. eapply Forall_impl; [|exact Hadm]. intros n. apply adm_extendable. exact HL.
      * intros is His. change (ib :: 0 :: is) with ([ib] ++ 0 :: is).
        rewrite get_unsqueeze; [reflexivity|reflexivity|unfold rank; rewrite Hs; cbn; lia].
    + unfold pads. clear - Hkl Hjl Hjlt HL. unfold D in *. clear D. revert ks js Hkl Hjl Hjlt.
      induction s as [|n s IH]; intros [|k ks] [|j js] H1 H2 H3; cbn [List.length] in *; try lia; [reflexivity|].
      cbn [map map2 pad_zs]. fold (pad_zs (map2 (fun o j => o * 2 + j * 1) ks (map (fun j => L - 1 - j) js)) (map (fun n => get_pad n L) s)).
      rewrite <- IH by (try lia; intros; apply H3; right; assumption).
      rewrite get_pad_eq by exact HL. cbn [fst]. specialize (H3 j (or_introl eq_refl)).
      f_equal. lia.
Qed.

End An.
