(** Orthogonalisation of the rows of a sparse matrix by Gram-Schmidt (sparse_math._orth_by_gram_schmidt). *)
From Coq Require Import List Arith ZArith Lia Bool String Ring.
From Verif Require Import Base Sums Tensor TensorFacts Accept Sparse SparseFacts SparseConv SpecMat SparseMM LinAlg.
Import ListNotations.

(** what is used of the division and the square root of the dtype *)
Definition la_div_ok {K : CRing} (LA : linalg K) : Prop := forall a b : K, b <> kzero -> kmul (la_div LA a b) b = a.
Definition la_sqrt_ok {K : CRing} (LA : linalg K) : Prop :=
  forall n (v : nat -> K), kmul (la_sqrt LA (dot n v v)) (la_sqrt LA (dot n v v)) = dot n v v.

Section GS.
Context {K : CRing}.
Add Ring Kring : (cr_th K).
Open Scope K_scope.
Variable LA : linalg K.
Hypothesis HD : domain K.
Hypothesis HR : formally_real K.
Hypothesis Hdiv : la_div_ok LA.
Hypothesis Hsqrt : la_sqrt_ok LA.
Implicit Types (m : smat K) (M : nat -> nat -> K).

Lemma memn_spec x l : memn x l = true <-> In x l.
Proof. unfold memn. rewrite existsb_exists. split; [intros [y [H E]]; apply Nat.eqb_eq in E; subst; exact H|intros H; exists x; split; [exact H|apply Nat.eqb_refl]]. Qed.
Lemma memn_false x l : ~ In x l -> memn x l = false.
Proof. intros H. destruct (memn x l) eqn:E; [apply memn_spec in E; contradiction|reflexivity]. Qed.
Lemma nodup_mid (l r : list nat) (i : nat) : NoDup (l ++ i :: r) -> ~ In i l /\ ~ In i r /\ NoDup l /\ NoDup r /\ (forall k, In k l -> ~ In k r).
Proof.
  intros H. pose proof (NoDup_remove_2 _ _ _ H) as H2. apply NoDup_remove_1 in H. rewrite in_app_iff in H2. repeat split; try tauto.
  - clear -H. induction l as [|a l IH]; [constructor|]. cbn in H. apply NoDup_cons_iff in H. destruct H as [Hn H]. constructor; [|auto]. rewrite in_app_iff in Hn. tauto.
  - clear -H. induction l as [|a l IH]; [exact H|]. cbn in H. apply NoDup_cons_iff in H. tauto.
  - clear -H. induction l as [|a l IH]; intros k Hk Hr; [destruct Hk|]. cbn in H. apply NoDup_cons_iff in H. destruct H as [Hn H]. rewrite in_app_iff in Hn.
    destruct Hk as [->|Hk]; [tauto|]. exact (IH H k Hk Hr).
Qed.
Definition coef (done : list nat) (i : nat) (x : K) (y : nat -> K) (k : nat) : K := if Nat.eqb k i then x else if memn k done then y k else 0.
Lemma sum_coef (done rest : list nat) i x y (f : nat -> K) : NoDup (done ++ i :: rest) ->
  sumL (done ++ i :: rest) (fun k => coef done i x y k * f k) = sumL done (fun d => y d * f d) + x * f i.
Proof.
  intros H. apply nodup_mid in H. destruct H as (H1 & H2 & _ & _ & H3). rewrite sumL_app. f_equal.
  - apply sumL_ext. intros d Hd. unfold coef. destruct (Nat.eqb_spec d i) as [->|_]; [contradiction|]. rewrite (proj2 (memn_spec d done) Hd). reflexivity.
  - change (sumL (i :: rest) ?g) with (g i + sumL rest g). cbv beta. rewrite sumL_zero; [unfold coef; rewrite Nat.eqb_refl; ring|].
    intros k Hk. unfold coef. destruct (Nat.eqb_spec k i) as [->|_]; [contradiction|]. rewrite memn_false; [ring|]. intros Hd. exact (H3 k Hd Hk).
Qed.

(** *** one row *)
Definition resid (n : nat) (M : nat -> nat -> K) (done : list nat) (i j : nat) : K := M i j - sumL done (fun d => dot n (M i) (M d) * M d j).
Lemma gs_row_ok m n done i : s_wf m -> s_rows m = n -> s_cols m = n ->
  exists row, gs_row LA m done i = Ok row /\ s_rows row = 1%nat /\ s_cols row = n /\ s_wf row /\
  (la_sqrt LA (dot n (resid n (mget m) done i) (resid n (mget m) done i)) <> 0 ->
   forall j, mget row 0 j = la_div LA (resid n (mget m) done i j) (la_sqrt LA (dot n (resid n (mget m) done i) (resid n (mget m) done i)))).
Proof.
  intros Hw Hr Hc. unfold gs_row.
  assert (Hf : forall l s, s_wf s -> s_rows s = 1%nat -> s_cols s = n ->
    exists s', fold_left (fun acc d => let* s := acc in let* no := sp_mm (sp_row m i) (sp_t (sp_row m d)) in sp_add s (sp_scale (mget no 0 0) (sp_row m d))) l (Ok s) = Ok s' /\
      s_wf s' /\ s_rows s' = 1%nat /\ s_cols s' = n /\ s_tag s' = s_tag s /\ forall j, mget s' 0 j = mget s 0 j + sumL l (fun d => dot n (mget m i) (mget m d) * mget m d j)).
  { induction l as [|d l IH]; intros s S1 S2 S3.
    - exists s. cbn [fold_left]. repeat split; auto. intros j. change (sumL [] ?g) with (0 : K). ring.
    - cbn [fold_left rbind]. destruct (sp_mm_run (sp_row m i) (sp_t (sp_row m d))) as [no Eno]; [reflexivity|reflexivity|].
      rewrite Eno. cbn [rbind]. destruct (sp_mm_ok _ _ _ Eno (wf_row m i Hw) (wf_t _ (wf_row m d Hw))) as (_ & _ & _ & _ & _ & Hv).
      rewrite sp_add_run by (cbn; congruence).
      destruct (IH (mkS (s_tag s) (s_rows s) (s_cols s) (s_ent s ++ s_ent (sp_scale (mget no 0 0) (sp_row m d))))) as (s' & E & W & R1 & R2 & R3 & R4); cbn [s_rows s_cols]; auto.
      + apply wf_app; [exact S1|]. pose proof (wf_map (kmul (mget no 0 0)) _ (wf_row m d Hw)) as H. unfold s_wf in H |- *. cbn in H |- *. rewrite S2, S3. rewrite Hc in H. exact H.
      + exists s'. split; [exact E|]. repeat split; auto. intros j. rewrite R4. change (sumL (d :: l) ?g) with (g d + sumL l g). cbv beta.
        unfold mget at 1. cbn [s_ent]. rewrite eg_app. fold (mget s 0 j). change (ent_get (s_ent ?x) 0 j) with (mget x 0 j). rewrite mget_scale, mget_row, Hv.
        change (s_cols (sp_row m i)) with (s_cols m). rewrite Hc.
        replace (sumf n (fun k => mget (sp_row m i) 0 k * mget (sp_t (sp_row m d)) k 0)) with (dot n (mget m i) (mget m d)); [ring|].
        unfold dot. apply sumf_ext. intros k Hk. rewrite mget_t, !mget_row. reflexivity. }
  destruct (Hf done (mkS (s_tag (sp_row m i)) 1 (s_cols (sp_row m i)) [])) as (s & Es & S1 & S2 & S3 & _ & S4); [constructor|reflexivity|exact Hc|].
  rewrite Es. cbn [rbind]. rewrite sp_add_run by (cbn; congruence). cbn [rbind]. eexists. split; [reflexivity|].
  set (o := mkS (s_tag (sp_row m i)) (s_rows (sp_row m i)) (s_cols (sp_row m i)) (s_ent (sp_row m i) ++ s_ent (sp_scale (- (1)) s))).
  assert (Wo : s_wf o).
  { apply wf_app; [exact (wf_row m i Hw)|]. pose proof (wf_map (kmul (- (1))) _ S1) as H. unfold s_wf in H |- *. cbn in H |- *. rewrite S2, S3 in H. rewrite Hc. exact H. }
  assert (Vo : forall j, mget o 0 j = resid n (mget m) done i j).
  { intros j. change (mget o 0 j) with (ent_get (s_ent (sp_row m i) ++ s_ent (sp_scale (- (1)) s)) 0 j). rewrite eg_app. change (ent_get (s_ent ?x) 0 j) with (mget x 0 j). rewrite mget_row, mget_scale, S4.
    unfold resid. change (mget (mkS ?g ?a ?b []) 0%nat j) with (0 : K). ring. }
  assert (Ho : row_norm LA o = la_sqrt LA (dot n (resid n (mget m) done i) (resid n (mget m) done i))).
  { unfold row_norm. f_equal. change (s_cols o) with (s_cols m). rewrite Hc. apply sumf_ext. intros j _. rewrite Vo. reflexivity. }
  repeat split.
  - exact Hc.
  - apply wf_map, wf_coalesce.
  - intros Hne j. rewrite Ho. rewrite (mget_map_co (fun v => la_div LA v (la_sqrt LA (dot n (resid n (mget m) done i) (resid n (mget m) done i)))) o 0 j Wo); [rewrite Vo; reflexivity|].
    apply (mul_cancel HD _ _ _ Hne). rewrite Hdiv by exact Hne. ring.
Qed.

Definition orthonormal_on (n : nat) (l : list nat) M : Prop := forall i k, In i l -> In k l -> dot n (M i) (M k) = delta i k.
Lemma gs_loop_ok n : forall todo done m, s_wf m -> s_rows m = n -> s_cols m = n -> NoDup (done ++ todo) -> (forall i, In i todo -> (i < n)%nat) ->
  orthonormal_on n done (mget m) -> independent n (done ++ todo) (mget m) ->
  exists r, gs_loop LA m done todo = Ok r /\ s_tag r = s_tag m /\ s_rows r = n /\ s_cols r = n /\ s_wf r /\
  (forall i j, ~ In i todo -> mget r i j = mget m i j) /\ orthonormal_on n (done ++ todo) (mget r) /\
  (forall i, In i (done ++ todo) -> in_span n (done ++ todo) (mget m) (mget r i)) /\
  (forall i, In i (done ++ todo) -> in_span n (done ++ todo) (mget r) (mget m i)).
Proof.
  induction todo as [|i rest IH]; intros done m Hw Hr Hc Hnd Hlt Hon Hind.
  - exists m. cbn [gs_loop]. rewrite app_nil_r in *. repeat split; auto; intros; apply span_self; assumption.
  - cbn [gs_loop]. set (M := mget m) in *. set (res := resid n M done i). set (len := la_sqrt LA (dot n res res)).
    pose proof (nodup_mid _ _ _ Hnd) as (Hi1 & Hi2 & Hnd1 & Hnd2 & Hdis).
    assert (Hlen2 : len * len = dot n res res) by (apply Hsqrt).
    assert (Hdot : dot n res res <> 0).
    { intros Hz. assert (Hz' : forall j, (j < n)%nat -> res j = 0) by (apply HR; exact Hz).
      assert (C : (1 : K) = 0); [|destruct HD as (_ & H1 & _); contradiction].
      assert (Hc0 : coef done i 1 (fun d => - dot n (M i) (M d)) i = 0).
      { apply Hind; [|apply in_or_app; right; left; reflexivity]. intros j Hj. rewrite (sum_coef done rest i 1 _ (fun k => M k j) Hnd).
        rewrite <- (Hz' j Hj). unfold res, resid. rewrite (sumL_ext done _ (fun d => (- (1)) * (dot n (M i) (M d) * M d j))) by (intros; ring). rewrite sumL_mul_l. ring. }
      unfold coef in Hc0. rewrite Nat.eqb_refl in Hc0. exact Hc0. }
    assert (Hlen : len <> 0) by (intros E; apply Hdot; rewrite <- Hlen2, E; ring).
    destruct (gs_row_ok m n done i Hw Hr Hc) as (row & Erow & R1 & R2 & R3 & R4). rewrite Erow. cbn [rbind]. specialize (R4 Hlen).
    fold M res len in R4. set (v := fun j => la_div LA (res j) len) in *.
    assert (Hv : forall j, v j * len = res j) by (intros j; apply Hdiv; exact Hlen).
    set (s := la_div LA 1 len). assert (Hs : s * len = 1) by (apply Hdiv; exact Hlen).
    assert (Hvs : forall j, v j = s * res j) by (intros j; apply (mul_cancel HD _ _ _ Hlen); rewrite Hv; transitivity (s * len * res j); [rewrite Hs; ring|ring]).
    destruct (sparse_replace_row_ok m i row) as (m' & Em' & P1 & P2 & P3 & P4 & P5); auto; try congruence; [rewrite Hr; apply Hlt; left; reflexivity|].
    rewrite Em'. cbn [rbind]. rewrite Hr in P2. rewrite Hc in P3.
    assert (Vi : forall j, mget m' i j = v j) by (intros j; rewrite P5, Nat.eqb_refl; apply R4).
    assert (Vk : forall k j, k <> i -> mget m' k j = M k j) by (intros k j Hk; rewrite P5; destruct (Nat.eqb_spec k i); [contradiction|reflexivity]).
    assert (Dres : forall d, In d done -> dot n res (M d) = 0).
    { intros d Hd. unfold res, resid. rewrite dot_sub, dot_sumL. rewrite (sumL_single done d); auto.
      - rewrite (Hon d d Hd Hd). unfold delta. rewrite Nat.eqb_refl. ring.
      - intros k Hk Hne. rewrite (Hon k d Hk Hd). unfold delta. destruct (Nat.eqb_spec k d); [contradiction|]. ring. }
    assert (Dv : forall d, In d done -> dot n v (M d) = 0).
    { intros d Hd. apply (mul_cancel HD _ _ _ Hlen). transitivity (dot n res (M d)); [|rewrite Dres by exact Hd; ring].
      unfold dot. rewrite <- sumf_mul_r. apply sumf_ext. intros j _. rewrite <- Hv. ring. }
    assert (Dvv : dot n v v = 1).
    { apply (mul_cancel HD _ _ len Hlen). apply (mul_cancel HD _ _ len Hlen). transitivity (dot n res res); [|rewrite <- Hlen2; ring].
      unfold dot. rewrite <- !sumf_mul_r. apply sumf_ext. intros j _. rewrite <- Hv. ring. }
    assert (Hon' : orthonormal_on n (done ++ [i]) (mget m')).
    { intros a b Ha Hb. rewrite in_app_iff in Ha, Hb.
      assert (Ea : forall a, In a done -> a <> i) by (intros x Hx ->; contradiction).
      destruct Ha as [Ha|[<-|[]]]; destruct Hb as [Hb|[<-|[]]].
      - rewrite (dot_ext n _ (M a) _ (M b)) by (intros; apply Vk; auto). apply Hon; assumption.
      - rewrite (dot_ext n _ (M a) _ v) by (intros; first [apply Vi | apply Vk; auto]). rewrite dot_comm, Dv by exact Ha. unfold delta. destruct (Nat.eqb_spec a i) as [E|]; [exfalso; exact (Ea a Ha E)|reflexivity].
      - rewrite (dot_ext n _ v _ (M b)) by (intros; first [apply Vi | apply Vk; auto]). rewrite Dv by exact Hb. unfold delta. destruct (Nat.eqb_spec i b) as [E|]; [exfalso; exact (Ea b Hb (eq_sym E))|reflexivity].
      - rewrite (dot_ext n _ v _ v) by (intros; apply Vi). unfold delta. rewrite Nat.eqb_refl. exact Dvv. }
    (* the new row in terms of the old ones, and back *)
    assert (Sv : forall j, v j = sumL (done ++ i :: rest) (fun k => coef done i s (fun d => - (s * dot n (M i) (M d))) k * M k j)).
    { intros j. rewrite (sum_coef done rest i s _ (fun k => M k j) Hnd), Hvs. unfold res, resid.
      rewrite (sumL_ext done (fun d => - (s * dot n (M i) (M d)) * M d j) (fun d => (- s) * (dot n (M i) (M d) * M d j))) by (intros; ring). rewrite sumL_mul_l. ring. }
    assert (Si : forall j, M i j = sumL (done ++ i :: rest) (fun k => coef done i len (fun d => dot n (M i) (M d)) k * mget m' k j)).
    { intros j. rewrite (sum_coef done rest i len _ (fun k => mget m' k j) Hnd), Vi.
      rewrite (sumL_ext done _ (fun d => dot n (M i) (M d) * M d j)) by (intros d Hd; rewrite Vk; [reflexivity|intros ->; contradiction]).
      transitivity (v j * len + sumL done (fun d => dot n (M i) (M d) * M d j)); [|ring]. rewrite Hv. unfold res, resid. ring. }
    assert (Hind' : independent n ((done ++ [i]) ++ rest) (mget m')).
    { intros c Hsum k Hk. rewrite <- app_assoc in Hsum, Hk. cbn [app] in Hsum, Hk.
      set (c' := fun k => if Nat.eqb k i then c i * s else if memn k done then c k - c i * s * dot n (M i) (M k) else c k).
      assert (Hc' : forall k, In k (done ++ i :: rest) -> c' k = 0).
      { apply Hind. intros j Hj. rewrite <- (Hsum j Hj). rewrite !sumL_app. change (sumL (i :: rest) ?g) with (g i + sumL rest g). cbv beta.
        rewrite (sumL_ext rest (fun k => c' k * M k j) (fun k => c k * mget m' k j)).
        2: { intros x Hx. unfold c'. destruct (Nat.eqb_spec x i) as [->|Hxi]; [contradiction|]. rewrite memn_false by (intros Hd; exact (Hdis x Hd Hx)). rewrite Vk by exact Hxi. reflexivity. }
        rewrite (sumL_ext done (fun k => c' k * M k j) (fun k => c k * mget m' k j + (- (c i * s)) * (dot n (M i) (M k) * M k j))).
        2: { intros x Hx. unfold c'. assert (Hxi : x <> i) by (intros ->; contradiction). destruct (Nat.eqb_spec x i); [contradiction|]. rewrite (proj2 (memn_spec x done) Hx). rewrite Vk by exact Hxi. ring. }
        rewrite sumL_add, sumL_mul_l. unfold c' at 1. rewrite Nat.eqb_refl, Vi, Hvs. unfold res, resid. ring. }
      assert (Hci : c i = 0).
      { assert (E : c i * s = 0) by (specialize (Hc' i ltac:(apply in_or_app; right; left; reflexivity)); unfold c' in Hc'; rewrite Nat.eqb_refl in Hc'; exact Hc').
        transitivity (c i * s * len); [transitivity (c i * (s * len)); [rewrite Hs; ring|ring]|rewrite E; ring]. }
      destruct (Nat.eq_dec k i) as [->|Hki]; [exact Hci|]. specialize (Hc' k Hk). unfold c' in Hc'. destruct (Nat.eqb_spec k i); [contradiction|].
      destruct (memn k done); [|exact Hc']. rewrite Hci in Hc'. transitivity (c k - 0 * s * dot n (M i) (M k)); [ring|exact Hc']. }
    destruct (IH (done ++ [i]) m' P4 P2 P3) as (r & Er & Q1 & Q2 & Q3 & Q4 & Q5 & Q6 & Q7 & Q8); auto.
    + rewrite <- app_assoc. exact Hnd.
    + intros k Hk. apply Hlt. right. exact Hk.
    + rewrite <- app_assoc in Q6, Q7, Q8. cbn [app] in Q6, Q7, Q8. exists r. repeat split; auto.
      * congruence.
      * intros k j Hk. rewrite Q5 by (intros H; apply Hk; right; exact H). apply Vk. intros ->. apply Hk. left. reflexivity.
      * intros k Hk. apply (span_trans n (done ++ i :: rest) _ (mget m')); [apply Q7; exact Hk|]. intros x Hx. destruct (Nat.eq_dec x i) as [->|Hxi].
        -- exists (coef done i s (fun d => - (s * dot n (M i) (M d)))). intros j Hj. rewrite Vi. apply Sv.
        -- destruct (span_self n (done ++ i :: rest) M x Hnd Hx) as [c Hcx]. exists c. intros j Hj. rewrite Vk by exact Hxi. apply Hcx, Hj.
      * intros k Hk. apply (span_trans n (done ++ i :: rest) _ (mget m')); [|exact Q8]. destruct (Nat.eq_dec k i) as [->|Hki].
        -- exists (coef done i len (fun d => dot n (M i) (M d))). intros j Hj. apply Si.
        -- destruct (span_self n (done ++ i :: rest) (mget m') k Hnd Hk) as [c Hcx]. exists c. intros j Hj. rewrite <- Hcx by exact Hj. symmetry. apply Vk. exact Hki.
Qed.
End GS.

(** ** Orthogonalisation by a QR decomposition (sparse_math._orth_by_qr) *)
(** the reduced QR decomposition of a matrix with independent columns: orthonormal columns and A = Q R *)
Definition la_qr_ok {K : CRing} (LA : linalg K) : Prop := forall (t : tensor K) n T, shp t = [n; T] -> wf t ->
  independent n (seq 0 T) (fun j i => get t [i; j]) ->
  shp (la_qr LA t) = [n; T] /\ wf (la_qr LA t) /\ ttag (la_qr LA t) = ttag t /\
  (forall a b, a < T -> b < T -> dot n (fun i => get (la_qr LA t) [i; a]) (fun i => get (la_qr LA t) [i; b]) = delta a b) /\
  exists R : nat -> nat -> K, forall i j, i < n -> j < T -> get t [i; j] = sumf T (fun k => kmul (get (la_qr LA t) [i; k]) (R k j)).

Section QR.
Context {K : CRing}.
Add Ring Kring2 : (cr_th K).
Open Scope K_scope.
Variable LA : linalg K.
Hypothesis HD : domain K.
Hypothesis Hqr : la_qr_ok LA.
Implicit Types (m : smat K) (M : nat -> nat -> K).

Fixpoint posn (x : nat) (l : list nat) : nat := match l with [] => 0 | a :: l' => if Nat.eqb a x then 0 else S (posn x l') end.
Lemma posn_nth l a : NoDup l -> (a < List.length l)%nat -> posn (nth a l 0%nat) l = a.
Proof.
  revert a. induction l as [|x l IH]; intros a Hn Ha; [cbn in Ha; lia|]. apply NoDup_cons_iff in Hn. destruct Hn as [Hx Hn]. cbn [posn]. destruct a as [|a]; cbn [nth].
  - rewrite Nat.eqb_refl. reflexivity.
  - destruct (Nat.eqb_spec x (nth a l 0%nat)) as [E|_]; [exfalso; apply Hx; rewrite E; apply nth_In; cbn in Ha; lia|]. rewrite IH; [reflexivity|exact Hn|cbn in Ha; lia].
Qed.
Lemma posn_in l x : In x l -> (posn x l < List.length l)%nat /\ nth (posn x l) l 0%nat = x.
Proof.
  induction l as [|a l IH]; intros H; [destruct H|]. cbn [posn]. destruct (Nat.eqb_spec a x) as [->|Hne]; [cbn; split; [lia|reflexivity]|].
  destruct H as [H|H]; [congruence|]. destruct (IH H). cbn [List.length nth]. split; [lia|assumption].
Qed.
Lemma independent_pos n l M : NoDup l -> independent n l M -> independent n (seq 0 (List.length l)) (fun a j => M (nth a l 0%nat) j).
Proof.
  intros Hn Hi c Hc a Ha. apply in_seq in Ha. set (c' := fun i => c (posn i l)).
  assert (H : forall i, In i l -> c' i = 0).
  { apply Hi. intros j Hj. rewrite <- (Hc j Hj), sumL_seq. rewrite <- (sumf_nth_sumL l 0%nat). apply sumf_ext. intros k Hk. unfold c'. rewrite posn_nth by assumption. reflexivity. }
  specialize (H (nth a l 0%nat)). unfold c' in H. rewrite posn_nth in H by (auto; lia). apply H, nth_In. lia.
Qed.
Lemma to_sparse_ok (t : tensor K) r c : shp t = [r; c] -> s_tag (to_sparse t) = ttag t /\ s_rows (to_sparse t) = r /\ s_cols (to_sparse t) = c /\ s_wf (to_sparse t) /\
  forall i j, (i < r)%nat -> (j < c)%nat -> mget (to_sparse t) i j = get t [i; j].
Proof.
  intros Hs. unfold to_sparse. rewrite Hs. repeat split.
  - unfold s_wf. cbn [s_ent s_rows s_cols]. apply Forall_forall. intros e He. apply in_flat_map in He. destruct He as (i & Hi & He). apply in_map_iff in He. destruct He as (j & <- & Hj).
    apply in_seq in Hi, Hj. apply in_size_spec. cbn [fst snd]. lia.
  - intros i j Hi Hj. unfold mget, ent_get. cbn [s_ent]. rewrite sumL_flat_map, sumL_seq. rewrite (sumf_single r i); [|exact Hi|].
    + rewrite sumL_map, sumL_seq. rewrite (sumf_single c j); [|exact Hj|].
      * unfold at_pos. cbn [fst snd]. rewrite !Nat.eqb_refl. reflexivity.
      * intros k Hk Hne. unfold at_pos. cbn [fst snd]. destruct (Nat.eqb_spec k j); [contradiction|]. rewrite andb_false_r. reflexivity.
    + intros k Hk Hne. rewrite sumL_map. apply sumL_zero. intros x _. unfold at_pos. cbn [fst snd]. destruct (Nat.eqb_spec k i); [contradiction|]. reflexivity.
Qed.
Lemma eg_diag2 (f : nat -> K) n i j : ent_get (map (fun i => (i, i, f i)) (seq 0 n)) i j = if Nat.ltb i n && Nat.eqb i j then f i else 0.
Proof. apply eg_diag. Qed.

Lemma orth_by_qr_ok m n l : s_wf m -> s_rows m = n -> s_cols m = n -> NoDup l -> (forall i, In i l -> (i < n)%nat) -> In (n - 1)%nat l ->
  independent n l (mget m) ->
  exists r, orth_by_qr LA m l = Ok r /\ s_tag r = s_tag m /\ s_rows r = n /\ s_cols r = n /\ s_wf r /\
  (forall i j, ~ In i l -> mget r i j = mget m i j) /\ orthonormal_on n l (mget r) /\
  (forall u, (forall i, In i l -> dot n u (mget m i) = 0) -> forall i, In i l -> dot n u (mget r i) = 0) /\
  (forall i, In i l -> in_span n l (mget r) (mget m i)).
Proof.
  intros Hw Hr Hc Hnd Hlt Hlast Hind. unfold orth_by_qr.
  set (T := List.length l).
  set (selent := map (fun p => (fst p, snd p, kone (c := K))) (combine (seq 0 T) l)).
  assert (Hcomb : forall a b, In (a, b) (combine (seq 0 T) l) <-> (a < T)%nat /\ nth a l 0%nat = b).
  { intros a b. split.
    - intros H. destruct (In_nth _ _ (0, 0)%nat H) as (k & Hk & E). rewrite combine_length, seq_length in Hk. rewrite combine_nth in E by (rewrite seq_length; reflexivity).
      rewrite seq_nth in E by lia. injection E as <- <-. split; [subst T; lia|]. reflexivity.
    - intros [Ha <-]. replace (a, nth a l 0%nat) with (nth a (combine (seq 0 T) l) (0, 0)%nat); [apply nth_In; rewrite combine_length, seq_length; subst T; lia|].
      rewrite combine_nth by (rewrite seq_length; reflexivity). rewrite seq_nth by exact Ha. reflexivity. }
  assert (HT : (0 < T)%nat) by (subst T; destruct l; [destruct Hlast|cbn; lia]).
  assert (Hrows : max1 (map (fun e => fst (fst e)) selent) = T).
  { apply max1_eq.
    - intros i Hi. subst selent. rewrite map_map in Hi. apply in_map_iff in Hi. destruct Hi as ([a b] & <- & H). apply Hcomb in H. cbn. lia.
    - right. subst selent. rewrite map_map. apply in_map_iff. exists ((T - 1)%nat, nth (T - 1) l 0%nat). split; [reflexivity|]. apply Hcomb. split; [lia|reflexivity]. }
  assert (Hcols : max1 (map (fun e => snd (fst e)) selent) = n).
  { apply max1_eq.
    - intros i Hi. subst selent. rewrite map_map in Hi. apply in_map_iff in Hi. destruct Hi as ([a b] & <- & H). apply Hcomb in H. destruct H as [H1 H2]. cbn. apply Hlt. rewrite <- H2. apply nth_In. exact H1.
    - right. subst selent. rewrite map_map. destruct (posn_in l (n - 1)%nat Hlast) as [P1 P2]. apply in_map_iff. exists (posn (n - 1) l, (n - 1)%nat). split; [reflexivity|]. apply Hcomb. split; assumption. }
  unfold sp_infer. rewrite Hrows, Hcols. set (selection := mkS (s_tag m) T n selent).
  assert (Hws : s_wf selection) by (pose proof (wf_infer (s_tag m) selent) as H; unfold sp_infer in H; rewrite Hrows, Hcols in H; exact H).
  destruct (sp_mm_run selection m) as [sel Esel]; [reflexivity|exact (eq_sym Hr)|]. rewrite Esel. cbn [rbind].
  destruct (sp_mm_ok _ _ _ Esel Hws Hw) as (_ & S1 & S2 & S3 & S4 & S5). change (s_rows selection) with T in S1. change (s_cols selection) with n in S5. rewrite Hc in S2. change (s_tag selection) with (s_tag m) in S3.
  assert (Vsel : forall a j, (a < T)%nat -> mget sel a j = mget m (nth a l 0%nat) j).
  { intros a j Ha. rewrite S5. assert (Hna : (nth a l 0 < n)%nat) by (apply Hlt, nth_In; exact Ha).
    rewrite (sumf_single n (nth a l 0%nat)); [|exact Hna|].
    - unfold mget at 1. cbn [s_ent selection]. unfold selent, T. rewrite eg_select. fold T. destruct (Nat.ltb_spec a T); [|lia]. rewrite Nat.eqb_refl. cbn [andb]. ring.
    - intros k Hk Hne. unfold mget at 1. cbn [s_ent selection]. unfold selent, T. rewrite eg_select. fold T. destruct (Nat.eqb_spec (nth a l 0%nat) k) as [E|_]; [congruence|]. rewrite andb_false_r. ring. }
  set (tm := transpose (to_dense sel) 0 1).
  assert (Hd : shp (to_dense sel) = [T; n]) by (unfold to_dense; rewrite shp_make, S1, S2; reflexivity).
  destruct (transpose2 _ _ _ Hd) as [Ht1 Ht2]. fold tm in Ht1, Ht2.
  assert (Vt : forall i a, (i < n)%nat -> (a < T)%nat -> get tm [i; a] = mget m (nth a l 0%nat) i).
  { intros i a Hi Ha. rewrite Ht2 by assumption. unfold to_dense. rewrite get_make by (rewrite S1, S2; repeat constructor; assumption). apply Vsel. exact Ha. }
  assert (Hti : independent n (seq 0 T) (fun j i => get tm [i; j])).
  { intros c Hcs. apply (independent_pos n l (mget m) Hnd Hind). intros j Hj. rewrite <- (Hcs j Hj). apply sumL_ext. intros a Ha. apply in_seq in Ha. rewrite Vt by lia. reflexivity. }
  destruct (Hqr tm n T Ht1 (wf_transpose _ _ _) Hti) as (Q1 & Q2 & Q3 & Q4 & R & Q5). set (q := la_qr LA tm) in *.
  destruct (transpose2 q n T Q1) as [Hq1 Hq2]. destruct (to_sparse_ok (transpose q 0 1) T n Hq1) as (X1 & X2 & X3 & X4 & X5). set (qr := to_sparse (transpose q 0 1)) in *.
  assert (Vq : forall a j, (a < T)%nat -> (j < n)%nat -> mget qr a j = get q [j; a]) by (intros; rewrite X5, Hq2 by assumption; reflexivity).
  rewrite Hr, Hc. rewrite (sp_make_run (s_tag m) n n) by (intros e He; apply in_map_iff in He; destruct He as (i & <- & Hi); apply in_seq in Hi; cbn; lia). cbn [rbind].
  set (removal := mkS (s_tag m) n n (map (fun i => (i, i, if memn i l then 0 else 1)) (seq 0 n))).
  assert (Wrem : s_wf removal) by (unfold s_wf; apply Forall_forall; intros e He; apply in_map_iff in He; destruct He as (i & <- & Hi); apply in_seq in Hi; apply in_size_spec; cbn; lia).
  destruct (sp_mm_run removal m) as [res Eres]; [reflexivity|exact (eq_sym Hr)|]. rewrite Eres. cbn [rbind].
  destruct (sp_mm_ok _ _ _ Eres Wrem Hw) as (_ & Y1 & Y2 & Y3 & Y4 & Y5). change (s_rows removal) with n in Y1. rewrite Hc in Y2. change (s_tag removal) with (s_tag m) in Y3. change (s_cols removal) with n in Y5.
  assert (Vres : forall i j, mget res i j = if memn i l then 0 else mget m i j).
  { intros i j. rewrite Y5. destruct (Nat.ltb_spec i n) as [Hi|Hi].
    - rewrite (sumf_single n i); [|exact Hi|].
      + unfold mget at 1. cbn [s_ent removal]. rewrite (eg_diag (fun i => if memn i l then 0 else 1)). destruct (Nat.ltb_spec i n); [|lia]. rewrite Nat.eqb_refl. cbn [andb]. destruct (memn i l); ring.
      + intros k Hk Hne. unfold mget at 1. cbn [s_ent removal]. rewrite (eg_diag (fun i => if memn i l then 0 else 1)). destruct (Nat.eqb_spec i k); [congruence|]. rewrite andb_false_r. ring.
    - rewrite sumf_zero.
      + rewrite mget_out by (auto; lia). destruct (memn i l); reflexivity.
      + intros k Hk. rewrite mget_out by (auto; cbn; lia). ring. }
  (* the loop that adds the new rows *)
  set (step := fun acc pos => let* r := acc in let row := coalesce (sp_row qr pos) in
      match nth_error l pos with
      | None => Raise IndexError
      | Some i => let* addition := sp_make (s_tag m) n n (map (fun e => ((fst (fst e) + i)%nat, snd (fst e), snd e)) (s_ent row)) in sp_add r addition end).
  assert (Hloop : forall ps acc, (forall p, In p ps -> (p < T)%nat) -> s_wf acc -> s_tag acc = s_tag m -> s_rows acc = n -> s_cols acc = n ->
    exists r, fold_left step ps (Ok acc) = Ok r /\ s_wf r /\ s_tag r = s_tag m /\ s_rows r = n /\ s_cols r = n /\
      forall i j, (j < n)%nat -> mget r i j = mget acc i j + sumL ps (fun p => if Nat.eqb (nth p l 0%nat) i then get q [j; p] else 0)).
  { induction ps as [|p ps IH]; intros acc Hps A1 A2 A3 A4.
    - exists acc. cbn [fold_left]. repeat split; auto. intros. change (sumL [] ?g) with (0 : K). ring.
    - cbn [fold_left]. assert (Hp : (p < T)%nat) by (apply Hps; left; reflexivity).
      assert (E : exists add, step (Ok acc) p = Ok (mkS (s_tag acc) (s_rows acc) (s_cols acc) (s_ent acc ++ add)) /\ s_wf (mkS (s_tag acc) n n add) /\
          forall i j, (j < n)%nat -> ent_get add i j = if Nat.eqb (nth p l 0%nat) i then get q [j; p] else 0).
      { unfold step. cbn [rbind]. rewrite (nth_error_nth' l 0%nat Hp). set (i0 := nth p l 0%nat).
        assert (Hi0 : (i0 < n)%nat) by (apply Hlt, nth_In; exact Hp).
        pose proof (wf_coalesce (sp_row qr p)) as Wc. unfold s_wf in Wc. change (s_rows (coalesce (sp_row qr p))) with 1%nat in Wc. change (s_cols (coalesce (sp_row qr p))) with (s_cols qr) in Wc. rewrite X3 in Wc. rewrite Forall_forall in Wc.
        rewrite sp_make_run.
        2: { intros e He. apply in_map_iff in He. destruct He as (e' & <- & He'). specialize (Wc e' He'). apply in_size_spec in Wc. cbn [fst snd]. lia. }
        cbn [rbind]. rewrite sp_add_run by (cbn; congruence). eexists. split; [reflexivity|]. split.
        - unfold s_wf. cbn [s_ent s_rows s_cols]. apply Forall_forall. intros e He. apply in_map_iff in He. destruct He as (e' & <- & He'). specialize (Wc e' He'). apply in_size_spec in Wc. apply in_size_spec. cbn [fst snd]. lia.
        - intros i j Hj. destruct (Nat.eqb_spec i0 i) as [<-|Hne].
          + rewrite <- (Vq p j Hp Hj), <- mget_row, <- (mget_coalesce (sp_row qr p)) by (apply wf_row; exact X4). unfold mget.
            apply (eg_map_pos _ (fun pq => ((fst pq + i0)%nat, snd pq))). intros [a b]. cbn [fst snd]. split; [intros [= H1 H2]; f_equal; lia|intros [= -> ->]; reflexivity].
          + apply eg_zero. intros e He Hat. exfalso. apply in_map_iff in He. destruct He as (e' & <- & He'). specialize (Wc e' He'). apply in_size_spec in Wc. apply at_pos_spec in Hat. cbn [fst snd] in Hat. lia. }
      destruct E as (add & E & W & V). rewrite E.
      destruct (IH (mkS (s_tag acc) (s_rows acc) (s_cols acc) (s_ent acc ++ add))) as (r & Er & B1 & B2 & B3 & B4 & B5); auto.
      + intros; apply Hps; right; assumption.
      + apply wf_app; [exact A1|]. rewrite A3, A4. exact W.
      + exists r. repeat split; auto. intros i j Hj. rewrite B5 by exact Hj. unfold mget at 1. cbn [s_ent]. rewrite eg_app, V by exact Hj. change (sumL (p :: ps) ?g) with (g p + sumL ps g). cbv beta. unfold mget. ring. }
  rewrite X2. destruct (Hloop (seq 0 T) res) as (r & Er & B1 & B2 & B3 & B4 & B5); auto.
  { intros p Hp. apply in_seq in Hp. lia. }
  match goal with |- context [fold_left ?f ?ll ?a] => change (fold_left f ll a) with (fold_left step (seq 0 T) (Ok res)) end. rewrite Er. cbn [rbind]. exists (coalesce r).
  assert (Vin : forall a j, (a < T)%nat -> (j < n)%nat -> mget (coalesce r) (nth a l 0%nat) j = get q [j; a]).
  { intros a j Ha Hj. rewrite mget_coalesce, B5, Vres, sumL_seq by assumption. rewrite (proj2 (memn_spec _ l)) by (apply nth_In; exact Ha).
    rewrite (sumf_single T a); [rewrite Nat.eqb_refl; ring|exact Ha|]. intros k Hk Hne. destruct (Nat.eqb_spec (nth k l 0%nat) (nth a l 0%nat)) as [E|_]; [|reflexivity].
    exfalso. apply Hne. apply (proj1 (NoDup_nth l 0%nat) Hnd); auto. }
  assert (Din : forall u a, (a < T)%nat -> dot n u (mget (coalesce r) (nth a l 0%nat)) = dot n u (fun j => get q [j; a])).
  { intros u a Ha. apply dot_ext; [reflexivity|]. intros j Hj. apply Vin; assumption. }
  split; [reflexivity|]. cbn [coalesce s_tag s_rows s_cols]. fold (coalesce r). repeat split; auto.
  - apply wf_coalesce.
  - intros i j Hi. destruct (Nat.ltb_spec j n) as [Hj|Hj].
    + rewrite mget_coalesce, B5, Vres by assumption. rewrite memn_false by exact Hi. rewrite sumL_zero; [ring|]. intros p Hp. apply in_seq in Hp.
      destruct (Nat.eqb_spec (nth p l 0%nat) i) as [E|_]; [|reflexivity]. exfalso. apply Hi. rewrite <- E. apply nth_In. lia.
    + rewrite !mget_out; auto; [right; lia|apply wf_coalesce|right; cbn; lia].
  - intros i k Hi Hk. destruct (posn_in l i Hi) as [P1 P2]. destruct (posn_in l k Hk) as [P3 P4]. rewrite <- P2, <- P4 at 1.
    rewrite Din by exact P3. rewrite dot_comm, Din by exact P1. rewrite Q4 by assumption. unfold delta.
    destruct (Nat.eqb_spec (posn k l) (posn i l)) as [E|E]; destruct (Nat.eqb_spec i k) as [E'|E']; auto; exfalso.
    + apply E'. rewrite <- P2, <- P4, E. reflexivity.
    + apply E. rewrite E'. reflexivity.
  - intros u Hu i Hi. destruct (posn_in l i Hi) as [P1 P2]. rewrite <- P2, Din by exact P1. fold T in P1.
    apply (left_kernel HD T R) with (v := fun a => dot n u (fun j => get q [j; a])); [| |exact P1].
    + intros y Hy j Hj. apply (Hti y); [|apply in_seq; lia]. intros i' Hi'. rewrite sumL_seq.
      rewrite (sumf_ext T _ (fun a => y a * sumf T (fun k => get q [i'; k] * R k a))) by (intros a Ha; rewrite (Q5 i' a Hi' Ha); reflexivity).
      rewrite (sumf_ext T _ (fun a => sumf T (fun k => get q [i'; k] * (R k a * y a)))) by (intros a Ha; rewrite <- sumf_mul_l; apply sumf_ext; intros; ring).
      rewrite sumf_swap. apply sumf_zero. intros k Hk. rewrite sumf_mul_l, (Hy k Hk). ring.
    + intros a Ha. rewrite <- (Hu (nth a l 0%nat)) by (apply nth_In; exact Ha).
      transitivity (sumf n (fun i' => u i' * get tm [i'; a])).
      * rewrite (sumf_ext n _ (fun i' => sumf T (fun k => u i' * (get q [i'; k] * R k a)))) by (intros i' Hi'; rewrite (Q5 i' a Hi' Ha), sumf_mul_l; reflexivity).
        rewrite sumf_swap. apply sumf_ext. intros k Hk. unfold dot. rewrite <- sumf_mul_r. apply sumf_ext. intros; ring.
      * unfold dot. apply sumf_ext. intros i' Hi'. rewrite Vt by assumption. reflexivity.
  - intros i Hi. destruct (posn_in l i Hi) as [P1 P2]. exists (fun k => R (posn k l) (posn i l)). intros j Hj.
    rewrite <- P2 at 1. rewrite <- (Vt j (posn i l) Hj P1), (Q5 j (posn i l) Hj P1). rewrite <- (sumf_nth_sumL l 0%nat). apply sumf_ext. intros k Hk.
    rewrite Vin by assumption. rewrite posn_nth by assumption. ring.
Qed.
End QR.
