(** C46 and C47: the continuous wavelet transform. *)
From Coq Require Import List Arith ZArith QArith Qround Lia Bool.
From Verif Require Import Base Sums Tensor TensorFacts CoreFacts Plumb Synthesis Learn Cwt SpecCwt CwtFacts.
Import ListNotations.
Local Open Scope nat_scope.

Lemma grid_of x step width : increasing_grid x step width -> grid_ok x step width.
Proof.
  intros (H & -> & -> & H1 & H2). destruct x as [|a [|b r]]; cbn in H; try lia. unfold grid_ok. cbn [nth grid_step hd] in *. repeat split; assumption.
Qed.

(** a scale is too small (one sample) exactly when scale * step * P <= 1 *)
Theorem C46_too_small P width step s : (0 < s)%Q -> (0 < step)%Q -> (0 < width)%Q -> 1 <= P ->
  (n_samples P width step s 1 <-> (inject_Z (Z.of_nat P) * (s * step) <= 1)%Q).
Proof.
  intros Hs Hst Hw HP.
  assert (Hc : (0 < s * step)%Q) by (apply Qmult_lt_0_compat; assumption).
  assert (Hsw : (0 < s * width)%Q) by (apply Qmult_lt_0_compat; assumption).
  assert (He : (1 < s * width + 1)%Q) by (rewrite <- (Qplus_0_l 1) at 1; apply Qplus_lt_le_compat; [exact Hsw|apply Qle_refl]).
  split.
  - intros H. apply Qnot_lt_le. intros L. assert (X : 1 < 1); [|lia]. apply H. split; assumption.
  - intros H k. split.
    + intros Hk. replace k with 0 by lia. split; [apply Qlt_trans with 1%Q; [reflexivity|exact He]|].
      apply Qmult_lt_0_compat; [|exact Hc]. change 0%Q with (inject_Z 0). rewrite <- Zlt_Qlt. lia.
    + intros [_ Hk]. destruct (Nat.lt_ge_cases k 1) as [|Hge]; [assumption|]. exfalso. apply (Qlt_irrefl 1%Q).
      apply Qle_lt_trans with (inject_Z (Z.of_nat k)); [change 1%Q with (inject_Z 1); rewrite <- Zle_Qle; lia|]. eapply Qlt_le_trans; eauto.
Qed.

Section Props.
Context {K : CRing}.
Add Ring Kring : (cr_th K).
Open Scope K_scope.
Implicit Types data out : tensor K.
Variable C : cplx K.

(** the wavelet given by its values [psi] on the grid [x]; conjugated, and no real part taken, for complex wavelets *)
Definition wavelet_values (a : approximation K) (psi : list K) (x : list Q) : Prop := a = Approx2 psi x \/ exists phi, a = Approx3 phi psi x.
Definition is_complex (kind : wkind) : bool := match kind with WDiscrete => false | WContinuous c | WModule c => c end.
Definition ipsi (kind : wkind) (psi : list K) (step : Q) (k : nat) : K :=
  let v := cumulative psi (cx_of C step) k in if is_complex kind then cx_conj C v else v.
Definition out_value (kind : wkind) (v : K) : K := if is_complex kind then v else cx_re C v.

Lemma cwt_value_ext root (p p' : nat -> K) step s M n (f f' : nat -> K) t : (forall k, (k < M)%nat -> p (grid_index step s k) = p' (grid_index step s k)) ->
  (forall j, (j < n)%nat -> f j = f' j) -> cwt_value root p step s M n f t = cwt_value root p' step s M n f' t.
Proof.
  intros Hp Hf. unfold cwt_value. cbv zeta.
  assert (E : forall k, lin_conv n M f (fun r => p (grid_index step s (M - 1 - r))) k = lin_conv n M f' (fun r => p' (grid_index step s (M - 1 - r))) k).
  { intros k. unfold lin_conv. apply sumf_ext. intros i Hi. destruct ((i <=? k)%nat && (k - i <? M)%nat)%bool eqn:Eb; [|reflexivity].
    apply andb_prop in Eb as [_ Eb]. apply Nat.ltb_lt in Eb. rewrite Hf by exact Hi. rewrite Hp by lia. reflexivity. }
  rewrite !E. reflexivity.
Qed.
Lemma grid_index_lt P width step s M k : (0 < s)%Q -> (0 < step)%Q -> n_samples P width step s M -> (k < M)%nat -> (grid_index step s k < P)%nat.
Proof.
  intros Hs Hst HM Hk. assert (Hc : (0 < s * step)%Q) by (apply Qmult_lt_0_compat; assumption). apply HM in Hk as [_ Hk].
  apply (div_lt _ _ _ Hc) in Hk. apply floor_lt in Hk. unfold grid_index.
  assert (H0 : (0 <= Qfloor (inject_Z (Z.of_nat k) / (s * step)))%Z).
  { change 0%Z with (Qfloor 0). apply Qfloor_resp_le. apply Qle_shift_div_l; [exact Hc|]. rewrite Qmult_0_l. change 0%Q with (inject_Z 0). rewrite <- Zle_Qle. lia. }
  lia.
Qed.

Lemma cwt_loop_ok data (psi : list K) x step width : cplx_ok C -> (1 <= rank data)%nat -> wf data -> grid_ok x step width -> psi <> [] -> (1 <= tlast data)%nat ->
  forall scales st, cache_ok C data st -> (forall s, In s scales -> (0 < s)%Q) ->
  (Exists (fun s => n_samples (length psi) width step s 1) scales /\ cwt_loop C data psi x st scales = Raise ValueError) \/
  (Forall (fun s => ~ n_samples (length psi) width step s 1) scales /\ exists ts, cwt_loop C data psi x st scales = Ok ts /\
     Forall2 (fun s t => forall M, n_samples (length psi) width step s M -> row_of C data (fun k => nth k psi 0) step s M t) scales ts).
Proof.
  intros HC Hr Hwf Hg Hp Hn. induction scales as [|s scales IH]; intros st Hst Hs.
  - right. split; [constructor|]. exists []. split; [reflexivity|constructor].
  - assert (Hs0 : (0 < s)%Q) by (apply Hs; left; reflexivity).
    destruct (int_psi_scale_ok psi x step width s Hg Hs0 Hp) as (M & HM & HM1 & _).
    pose proof (cwt_step_ok C data psi x step width s M st HC Hr Hwf Hg Hs0 Hp HM Hst (or_introl Hn)) as P. cbn [cwt_loop].
    destruct (Nat.eqb_spec M 1) as [->|HM2].
    + left. split; [left; exact HM|]. rewrite P. reflexivity.
    + destruct P as (st' & t & E & Hst' & Ht). rewrite E. cbn [rbind fst snd].
      assert (N1 : ~ n_samples (length psi) width step s 1) by (intros X; apply HM2; eapply n_samples_unique; eauto).
      destruct (IH st' Hst') as [[Ex E']|[Fa (ts & E' & F)]]; [intros s' Hs'; apply Hs; right; exact Hs'| |].
      * left. split; [right; exact Ex|]. rewrite E'. reflexivity.
      * right. split; [constructor; assumption|]. exists (t :: ts). rewrite E'. split; [reflexivity|]. constructor; [|exact F].
        intros M' HM'. replace M' with M by (eapply n_samples_unique; eauto). exact Ht.
Qed.

Section Main.
Variables (kind : wkind) (a : approximation K) (psi : list K) (x : list Q) (step width : Q).
Hypothesis HC : cplx_ok C.
Hypothesis Ha : wavelet_values a psi x.
Hypothesis Hx : increasing_grid x step width.
Hypothesis Hpsi : psi <> [].

(** ** C46: every output row has the length of the data, and is given by the linear convolution; or some scale is too
    small and ValueError is raised *)
Theorem C46_cwt data (scales : list Q) : wf data -> (1 <= rank data)%nat -> (1 <= tlast data)%nat -> scales <> [] -> (forall s, In s scales -> (0 < s)%Q) ->
  (Exists (fun s => n_samples (length psi) width step s 1) scales /\ cwt C data scales kind a = Raise ValueError) \/
  (Forall (fun s => ~ n_samples (length psi) width step s 1) scales /\
   exists out, cwt C data scales kind a = Ok out /\ wf out /\ shp out = length scales :: shp data /\
     forall i M idx, (i < length scales)%nat -> n_samples (length psi) width step (nth i scales 0%Q) M -> valid idx (shp data) ->
       get out (i :: idx) = out_value kind (cwt_value (cx_sqrt C (nth i scales 0%Q)) (ipsi kind psi step) step (nth i scales 0%Q) M (tlast data)
                                              (fun j => get data (updn (rank data - 1) j idx)) (nth (rank data - 1) idx 0%nat))).
Proof.
  intros Hwf Hr Hn Hne Hs. pose proof (grid_of x step width Hx) as Hg. pose proof Hg as (Gx & _ & Hst & _).
  unfold cwt. assert (Ei : integrate_wavelet C a = Ok (integrate C psi step, None, x)).
  { destruct Ha as [-> | (phi & ->)]; cbn [integrate_wavelet]; rewrite Gx; reflexivity. }
  rewrite Ei. cbn [rbind]. clear Ei.
  set (ip := match kind with WDiscrete => integrate C psi step | WContinuous c | WModule c => if c then map (cx_conj C) (integrate C psi step) else integrate C psi step end).
  assert (Lip : length ip = length psi) by (unfold ip, integrate; destruct kind as [|[]|[]]; rewrite ?map_length, seq_length; reflexivity).
  assert (Gip : forall k, (k < length psi)%nat -> nth k ip 0 = ipsi kind psi step k).
  { intros k Hk. unfold ip, ipsi, cumulative, integrate. destruct kind as [|[]|[]]; cbn [is_complex];
      try (rewrite (nth_map_in (cx_conj C) _ k 0) by (rewrite map_length, seq_length; exact Hk)); rewrite nth_map_seq by exact Hk; reflexivity. }
  assert (Hip : ip <> []) by (intros X; rewrite X in Lip; destruct psi; [congruence|discriminate]).
  destruct (cwt_loop_ok data ip x step width HC Hr Hwf Hg Hip Hn scales None I Hs) as [[Ex E]|[Fa (ts & E & F)]]; rewrite Lip in *.
  - left. split; [exact Ex|]. rewrite E. reflexivity.
  - right. split; [exact Fa|]. rewrite E. cbn [rbind].
    assert (Fs : Forall (fun t => shp t = shp data) ts).
    { assert (Hs' : forall s, In s scales -> (0 < s)%Q) by exact Hs. clear - F Hg Hip Lip Hs'. induction F as [|s t sc ts Hrow F IH]; [constructor|]. constructor; [|apply IH; intros; apply Hs'; right; assumption].
      destruct (int_psi_scale_ok ip x step width s Hg (Hs' s (or_introl eq_refl)) Hip) as (M & HM & _). rewrite Lip in HM. apply (Hrow M HM). }
    assert (Lts : length ts = length scales) by (clear - F; induction F; cbn; congruence).
    destruct ts as [|t0 ts]; [destruct scales; [congruence|discriminate]|].
    inversion Fs as [|? ? F0 F1]; subst. rewrite stack_ok by (eapply Forall_impl; [|exact F1]; intros u Hu; cbn in *; congruence).
    cbn [rbind]. rewrite F0. change (S (length ts)) with (length (t0 :: ts)). rewrite Lts.
    set (st := tmake _ _ _).
    assert (Gst : forall i M idx, (i < length scales)%nat -> n_samples (length psi) width step (nth i scales 0%Q) M -> valid idx (shp data) ->
       get st (i :: idx) = cwt_value (cx_sqrt C (nth i scales 0%Q)) (ipsi kind psi step) step (nth i scales 0%Q) M (tlast data)
                             (fun j => get data (updn (rank data - 1) j idx)) (nth (rank data - 1) idx 0%nat)).
    { intros i M idx Hi HM Hv. unfold st. rewrite get_make by (constructor; assumption). change (nth 0 (i :: idx) 0%nat) with i. change (removen 0 (i :: idx)) with idx.
      assert (Hrow : row_of C data (fun k => nth k ip 0) step (nth i scales 0%Q) M (nth i (t0 :: ts) t0)).
      { assert (Q : nth_error scales i = Some (nth i scales 0%Q)) by (apply nth_error_nth'; exact Hi).
        assert (Q' : nth_error (t0 :: ts) i = Some (nth i (t0 :: ts) t0)) by (apply nth_error_nth'; lia).
        revert Q Q' HM. generalize (nth i scales 0%Q) (nth i (t0 :: ts) t0). clear - F. revert i. induction F as [|s t sc tl Hr F IH]; intros i s' t'; [destruct i; discriminate|].
        destruct i as [|i]; cbn; [intros X Y; injection X as ->; injection Y as ->; auto|apply IH]. }
      destruct Hrow as (_ & _ & _ & Hrow). rewrite (Hrow idx Hv). unfold iput, ilast. apply cwt_value_ext; [|reflexivity].
      intros k Hk. apply Gip. eapply grid_index_lt; [| |exact HM|exact Hk]; [apply Hs, nth_In, Hi|exact Hst]. }
    assert (Sst : shp st = length scales :: shp data) by reflexivity. assert (Wst : wf st) by apply wf_make. clearbody st.
    assert (Re : forall v, v = treal C st -> is_complex kind = false -> wf v /\ shp v = length scales :: shp data /\
       forall i M idx, (i < length scales)%nat -> n_samples (length psi) width step (nth i scales 0%Q) M -> valid idx (shp data) ->
       get v (i :: idx) = out_value kind (cwt_value (cx_sqrt C (nth i scales 0%Q)) (ipsi kind psi step) step (nth i scales 0%Q) M (tlast data)
                             (fun j => get data (updn (rank data - 1) j idx)) (nth (rank data - 1) idx 0%nat))).
    { intros v -> Hk. split; [apply wf_make|]. split; [exact Sst|]. intros i M idx Hi HM Hv. unfold treal, out_value. rewrite Hk.
      rewrite get_make by (rewrite Sst; constructor; assumption). rewrite (Gst i M idx Hi HM Hv). reflexivity. }
    eexists. split; [reflexivity|]. destruct kind as [|[]|[]]; try (apply Re; reflexivity); (split; [exact Wst|split; [exact Sst|]]); intros; apply Gst; assumption.
Qed.
(** biorthogonal wavelets (five functions) are rejected *)
Theorem C46_biorthogonal data scales phi_d psi_d phi_r psi_r x' s' : grid_step x' = Ok s' ->
  cwt C data scales kind (Approx5 phi_d psi_d phi_r psi_r x') = Raise ValueError.
Proof. intros E. unfold cwt. cbn [integrate_wavelet]. rewrite E. reflexivity. Qed.

(** the primitives of biorthogonal wavelets: decomposition first, then reconstruction *)
Theorem C46_integrate phi_d psi_d phi_r psi_r x' step' width' : increasing_grid x' step' width' ->
  exists d r, integrate_wavelet C (Approx5 phi_d psi_d phi_r psi_r x') = Ok (d, Some r, x') /\ length d = length psi_d /\ length r = length psi_r /\
    (forall k, (k < length psi_d)%nat -> nth k d 0 = cumulative psi_d (cx_of C step') k) /\ (forall k, (k < length psi_r)%nat -> nth k r 0 = cumulative psi_r (cx_of C step') k).
Proof.
  intros Hx'. destruct (grid_of x' step' width' Hx') as (Gx & _). cbn [integrate_wavelet]. rewrite Gx. cbn [rbind]. eexists _, _. split; [reflexivity|].
  unfold integrate. rewrite !map_length, !seq_length. split; [reflexivity|]. split; [reflexivity|]. split; intros k Hk; rewrite nth_map_seq by exact Hk; reflexivity.
Qed.

(** ** C47: the row of a scale depends on that scale and on the fibre of the data only *)
Theorem C47_rows_independent data data' (scales scales' : list Q) out out' n b b' i i' :
  wf data -> wf data' -> shp data = b ++ [n] -> shp data' = b' ++ [n] -> (1 <= n)%nat ->
  (forall s, In s scales -> (0 < s)%Q) -> (forall s, In s scales' -> (0 < s)%Q) ->
  cwt C data scales kind a = Ok out -> cwt C data' scales' kind a = Ok out' ->
  (i < length scales)%nat -> (i' < length scales')%nat -> nth i scales 0%Q = nth i' scales' 0%Q ->
  forall k k' : list nat, valid k b -> valid k' b' ->
  (forall j, (j < n)%nat -> get data (k ++ [j]) = get data' (k' ++ [j])) ->
  forall j, (j < n)%nat -> get out (i :: k ++ [j]) = get out' (i' :: k' ++ [j]).
Proof.
  intros W W' S S' Hn Hs Hs' E E' Hi Hi' Es k k' Hk Hk' Hf j Hj.
  assert (R : rank data = (length b + 1)%nat) by (unfold rank; rewrite S, app_length; reflexivity).
  assert (R' : rank data' = (length b' + 1)%nat) by (unfold rank; rewrite S', app_length; reflexivity).
  assert (L : tlast data = n) by (unfold tlast; rewrite R, S, Nat.add_sub, app_nth2, Nat.sub_diag by lia; reflexivity).
  assert (L' : tlast data' = n) by (unfold tlast; rewrite R', S', Nat.add_sub, app_nth2, Nat.sub_diag by lia; reflexivity).
  destruct (C46_cwt data scales) as [[_ X]|[_ (o & X & _ & _ & G)]]; try assumption; try lia; [intros ->; cbn in Hi; lia|congruence|].
  destruct (C46_cwt data' scales') as [[_ X']|[_ (o' & X' & _ & _ & G')]]; try assumption; try lia; [intros ->; cbn in Hi'; lia|congruence|].
  rewrite E in X. injection X as <-. rewrite E' in X'. injection X' as <-.
  destruct (int_psi_scale_ok psi x step width (nth i scales 0%Q) (grid_of x step width Hx) (Hs _ (nth_In _ _ Hi)) Hpsi) as (M & HM & _).
  assert (V : forall kk bb v, valid kk bb -> (v < n)%nat -> valid (kk ++ [v]) (bb ++ [n])) by (intros; apply valid_app; [assumption|repeat constructor; assumption]).
  rewrite (G i M (k ++ [j]) Hi HM) by (rewrite S; apply V; assumption). rewrite (G' i' M (k' ++ [j]) Hi') by (rewrite <- ?Es, ?S'; [exact HM] || (rewrite S'; apply V; assumption)).
  rewrite <- Es, L, L', R, R', !Nat.add_sub. rewrite <- (valid_length _ _ Hk), <- (valid_length _ _ Hk').
  rewrite !app_nth2, !Nat.sub_diag by lia. cbn [nth]. f_equal. apply cwt_value_ext; [reflexivity|]. intros q Hq. rewrite !updn_app2, !Nat.sub_diag by lia. cbn [updn]. apply Hf. exact Hq.
Qed.
(** the scales are accepted together exactly when each is accepted alone *)
Theorem C47_accepted data (scales : list Q) : wf data -> (1 <= rank data)%nat -> (1 <= tlast data)%nat -> scales <> [] -> (forall s, In s scales -> (0 < s)%Q) ->
  (exists out, cwt C data scales kind a = Ok out) <-> (forall s, In s scales -> exists out, cwt C data [s] kind a = Ok out).
Proof.
  intros W R L Hne Hs.
  assert (One : forall s, In s scales -> ((exists out, cwt C data [s] kind a = Ok out) <-> ~ n_samples (length psi) width step s 1)).
  { intros s Hin. destruct (C46_cwt data [s] W R L) as [[Ex E]|[Fa (o & E & _)]]; [discriminate|intros s' [<-|[]]; auto| |].
    - rewrite E. inversion Ex as [? ? X|? ? X]; subst; [|inversion X]. split; [intros [? ?]; discriminate|tauto].
    - rewrite E. inversion Fa; subst. split; [auto|eauto]. }
  destruct (C46_cwt data scales W R L Hne Hs) as [[Ex E]|[Fa (o & E & _)]]; rewrite E.
  - split; [intros [? ?]; discriminate|]. intros H. exfalso. apply Exists_exists in Ex as (s & Hin & Hx'). apply (proj1 (One s Hin) (H s Hin)). exact Hx'.
  - split; [|eauto]. intros _ s Hin. apply (One s Hin). rewrite Forall_forall in Fa. apply Fa. exact Hin.
Qed.
End Main.

(** for a real wavelet, real data and real square roots, taking the real part changes nothing *)
Theorem C46_real (real : K -> Prop) kind psi step s M n (f : nat -> K) t :
  real 0 -> (forall u v, real u -> real v -> real (u + v)) -> (forall u v, real u -> real v -> real (u * v)) -> (forall u, real u -> real (- u)) ->
  (forall q, real (cx_of C q)) -> (forall q, (0 < q)%Q -> real (cx_sqrt C q)) -> (forall v, real v -> cx_re C v = v) ->
  (forall j, real (f j)) -> (forall v, In v psi -> real v) -> (0 < s)%Q -> is_complex kind = false ->
  out_value kind (cwt_value (cx_sqrt C s) (ipsi kind psi step) step s M n f t) = cwt_value (cx_sqrt C s) (ipsi kind psi step) step s M n f t.
Proof.
  intros R0 Ra Rm Ro Rq Rs Rr Rf Rp Hs Hk. unfold out_value. rewrite Hk. apply Rr.
  assert (Sum : forall m g, (forall i, real (g i)) -> real (sumf m g)) by (intros m g Hg; induction m as [|m IH]; cbn; [exact R0|apply Ra; auto]).
  assert (Rn : forall j, real (nth j psi 0)) by (intros j; destruct (Nat.lt_ge_cases j (length psi)); [apply Rp, nth_In; assumption|rewrite nth_overflow by assumption; exact R0]).
  assert (Ri : forall k, real (ipsi kind psi step k)) by (intros k; unfold ipsi, cumulative; rewrite Hk; apply Rm; [apply Sum; intros; apply Rn|apply Rq]).
  assert (Rc : forall g k, (forall r, real (g r)) -> real (lin_conv n M f g k)) by (intros g k Hg; apply Sum; intros i; destruct (_ && _)%bool; [apply Rm; auto|exact R0]).
  unfold cwt_value. cbv zeta.
  apply Rm; [apply Ro, Rs, Hs|]. match goal with |- real (?u - ?v) => replace (u - v) with (u + - v) by ring end. apply Ra; [|apply Ro]; apply Rc; intros; apply Ri.
Qed.
End Props.
