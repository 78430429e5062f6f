(** The non-separable two-dimensional boundary matrices (matmul_transform_2.py:57-231): raw rows, which of them are
    truncated, orthogonality. *)
From Coq Require Import List Arith ZArith Lia Bool String Ring.
From Verif Require Import Base Sums Tensor TensorFacts Accept Util Plumb Spec Synthesis Filters Conv2 Sparse SparseFacts SparseConv SparseConv2 Conv2Stored SepFacts SpecMat SparseMM LinAlg PropsSparse GramSchmidt Mat1 MatOrth Boundary MatPre MatN.
Import ListNotations.

Local Arguments Nat.div : simpl never.
Local Arguments Nat.modulo : simpl never.
Local Arguments Nat.ltb : simpl never.
Local Arguments Nat.leb : simpl never.

(** ** the order of the rows and columns: the row of output (i, j) (i < h/2: low pass along the height, j < v/2: low pass
    along the width) and the column of input (k, l) *)
Definition bcode (h v i j : nat) : nat := (if Nat.ltb i (h / 2) then 0 else 1) + 2 * (if Nat.ltb j (v / 2) then 0 else 1).
Definition rix (h v i j : nat) : nat := bcode h v i j * (v / 2 * (h / 2)) + (ksel v j * (h / 2) + ksel h i).
Definition cix (h k l : nat) : nat := l * h + k.
Lemma ksel_lt n i : n mod 2 = 0 -> i < n -> ksel n i < n / 2.
Proof. intros He Hi. pose proof (Nat.div_mod n 2 ltac:(lia)). unfold ksel. destruct (Nat.ltb_spec i (n / 2)); lia. Qed.
Lemma bcode_lt h v i j : bcode h v i j < 4.
Proof. unfold bcode. destruct (Nat.ltb i (h / 2)), (Nat.ltb j (v / 2)); lia. Qed.
Lemma cell_lt a b A B : a < A -> b < B -> a * B + b < A * B.
Proof. intros. nia. Qed.
Lemma rix_lt h v i j : h mod 2 = 0 -> v mod 2 = 0 -> i < h -> j < v -> rix h v i j < v * h.
Proof.
  intros Hh Hv Hi Hj. pose proof (ksel_lt h i Hh Hi). pose proof (ksel_lt v j Hv Hj). pose proof (bcode_lt h v i j).
  pose proof (Nat.div_mod h 2 ltac:(lia)). pose proof (Nat.div_mod v 2 ltac:(lia)). unfold rix.
  replace (v * h) with (4 * (v / 2 * (h / 2))) by nia. apply cell_lt; [assumption|apply cell_lt; assumption].
Qed.
Lemma rix_inj h v i j i' j' : h mod 2 = 0 -> v mod 2 = 0 -> i < h -> j < v -> i' < h -> j' < v -> rix h v i j = rix h v i' j' -> i = i' /\ j = j'.
Proof.
  intros Hh Hv Hi Hj Hi' Hj' E. pose proof (ksel_lt h i Hh Hi). pose proof (ksel_lt v j Hv Hj). pose proof (ksel_lt h i' Hh Hi'). pose proof (ksel_lt v j' Hv Hj').
  unfold rix in E. apply divmod_uniq in E as [E1 E2]; [|apply cell_lt; assumption|apply cell_lt; assumption]. apply divmod_uniq in E2 as [E2 E3]; [|assumption|assumption].
  unfold bcode, ksel in *. destruct (Nat.ltb_spec i (h / 2)), (Nat.ltb_spec i' (h / 2)), (Nat.ltb_spec j (v / 2)), (Nat.ltb_spec j' (v / 2)); lia.
Qed.
(** the inverse *)
Definition rixi (h v r : nat) : nat := (r mod (v / 2 * (h / 2))) mod (h / 2) + (r / (v / 2 * (h / 2))) mod 2 * (h / 2).
Definition rixj (h v r : nat) : nat := (r mod (v / 2 * (h / 2))) / (h / 2) + (r / (v / 2 * (h / 2))) / 2 * (v / 2).
Lemma rix_inv h v r : h mod 2 = 0 -> v mod 2 = 0 -> r < v * h -> rixi h v r < h /\ rixj h v r < v /\ rix h v (rixi h v r) (rixj h v r) = r.
Proof.
  intros Hh Hv Hr. pose proof (Nat.div_mod h 2 ltac:(lia)) as Dh. pose proof (Nat.div_mod v 2 ltac:(lia)) as Dv. set (a := h / 2) in *. set (b := v / 2) in *.
  assert (Ha : 0 < a) by nia. assert (Hb : 0 < b) by nia. assert (Hq : 0 < b * a) by nia. unfold rixi, rixj. fold a b.
  pose proof (Nat.div_mod r (b * a) ltac:(lia)) as D1. pose proof (Nat.mod_upper_bound r (b * a) ltac:(lia)) as U1. set (c := r / (b * a)) in *. set (r' := r mod (b * a)) in *.
  pose proof (Nat.div_mod r' a ltac:(lia)) as D2. pose proof (Nat.mod_upper_bound r' a ltac:(lia)) as U2. set (p := r' / a) in *. set (q := r' mod a) in *.
  assert (Hc : c < 4) by (assert (4 * (b * a) = v * h) by nia; nia). assert (Hp : p < b) by nia.
  pose proof (Nat.div_mod c 2 ltac:(lia)) as D3. pose proof (Nat.mod_upper_bound c 2 ltac:(lia)) as U3. set (c1 := c / 2) in *. set (c0 := c mod 2) in *.
  assert (H0 : c0 = 0 \/ c0 = 1) by lia. assert (H1 : c1 = 0 \/ c1 = 1) by lia.
  split; [destruct H0 as [-> | ->]; lia|]. split; [destruct H1 as [-> | ->]; lia|].
  unfold rix, bcode, ksel. fold a b.
  assert (E0 : (if Nat.ltb (q + c0 * a) a then 0 else 1) = c0 /\ (if Nat.ltb (q + c0 * a) a then q + c0 * a else q + c0 * a - a) = q) by (destruct H0 as [-> | ->]; [destruct (Nat.ltb_spec (q + 0 * a) a); lia|destruct (Nat.ltb_spec (q + 1 * a) a); lia]).
  assert (E1 : (if Nat.ltb (p + c1 * b) b then 0 else 1) = c1 /\ (if Nat.ltb (p + c1 * b) b then p + c1 * b else p + c1 * b - b) = p) by (destruct H1 as [-> | ->]; [destruct (Nat.ltb_spec (p + 0 * b) b); lia|destruct (Nat.ltb_spec (p + 1 * b) b); lia]).
  destruct E0 as [E0 E0']. destruct E1 as [E1 E1']. rewrite E0, E0', E1, E1'. nia.
Qed.
Lemma rix_surj h v r : h mod 2 = 0 -> v mod 2 = 0 -> r < v * h -> exists i j, i < h /\ j < v /\ rix h v i j = r.
Proof. intros H1 H2 H3. exists (rixi h v r), (rixj h v r). apply rix_inv; assumption. Qed.
Lemma rix_last h v : h mod 2 = 0 -> v mod 2 = 0 -> 0 < h -> 0 < v -> rix h v (h - 1) (v - 1) = v * h - 1.
Proof.
  intros Hh Hv H1 H2. pose proof (Nat.div_mod h 2 ltac:(lia)) as Dh. pose proof (Nat.div_mod v 2 ltac:(lia)) as Dv. unfold rix, bcode, ksel.
  destruct (Nat.ltb_spec (h - 1) (h / 2)), (Nat.ltb_spec (v - 1) (v / 2)); try lia.
  set (a := h / 2) in *. set (b := v / 2) in *. replace (h - 1 - a) with (a - 1) by lia. replace (v - 1 - b) with (b - 1) by lia. assert (0 < a) by lia. assert (0 < b) by lia. assert (v * h = 4 * (b * a)) by nia. nia.
Qed.

Section B2.
Context {K : CRing}.
Add Ring Kring : (cr_th K).
Open Scope K_scope.
Implicit Types (m : smat K) (f : list K) (t : tensor K).

(** ** concatenating bands *)
Lemma sp_cats_ok (q C : nat) (g : tag) d : forall (l : list (smat K)) m, s_wf m -> s_cols m = C -> Forall (fun b => s_rows b = q /\ s_cols b = C /\ s_wf b /\ s_tag b = g) l ->
  exists r, sp_cats m l = Ok r /\ s_tag r = s_tag m /\ s_rows r = (s_rows m + List.length l * q)%nat /\ s_cols r = C /\ s_wf r /\
  (forall i j, (i < s_rows m)%nat -> mget r i j = mget m i j /\ (st r i j <-> st m i j)) /\
  (forall c i j, (c < List.length l)%nat -> (i < q)%nat -> mget r (s_rows m + (c * q + i)) j = mget (nth c l d) i j /\ (st r (s_rows m + (c * q + i)) j <-> st (nth c l d) i j)).
Proof.
  induction l as [|b l IH]; intros m Hw HC HF; cbn [sp_cats List.length].
  - exists m. rewrite Nat.mul_0_l, Nat.add_0_r. repeat split; auto; try tauto; intros; lia.
  - pose proof (Forall_inv HF) as (B1 & B2 & B3 & B4). pose proof (Forall_inv_tail HF) as HF'. destruct (sp_cat_run m b) as (c & Ec & _); [congruence|]. rewrite Ec. cbn [rbind].
    destruct (sp_cat_ok m b c Ec) as (_ & C1 & C2 & C3 & C4). destruct (C4 Hw B3) as [C5 C6]. pose proof (fun i j => st_cat m b c i j Ec Hw) as C7.
    destruct (IH c C5 ltac:(congruence) HF') as (r & E & R1 & R2 & R3 & R4 & R5 & R6). exists r. split; [exact E|]. split; [congruence|]. split; [rewrite R2, C1, B1; lia|]. split; [exact R3|]. split; [exact R4|]. split.
    + intros i j Hi. destruct (R5 i j ltac:(lia)) as [H1 H2]. rewrite H1, H2, C6, C7. destruct (Nat.ltb_spec i (s_rows m)); [tauto|lia].
    + intros k i j Hk Hi. destruct k as [|k].
      * cbn [nth]. rewrite Nat.mul_0_l, Nat.add_0_l. destruct (R5 (s_rows m + i)%nat j ltac:(lia)) as [H1 H2]. rewrite H1, H2, C6, C7. destruct (Nat.ltb_spec (s_rows m + i) (s_rows m)); [lia|].
        replace (s_rows m + i - s_rows m)%nat with i by lia. tauto.
      * cbn [nth]. specialize (R6 k i j ltac:(lia) Hi). replace (s_rows m + (S k * q + i))%nat with (s_rows c + (k * q + i))%nat by (rewrite C1, B1; cbn [Nat.mul]; lia). exact R6.
Qed.

(** ** one band *)
Lemma zget_out f z : (z < 0 \/ Z.of_nat (List.length f) <= z)%Z -> zget f z = 0.
Proof. intros [H|H]; [apply zget_neg|apply zget_big]; assumption. Qed.
Lemma fget2_prod t (f1 f2 : list K) L z1 z2 : shp t = [L; L] -> List.length f1 = L -> List.length f2 = L ->
  (forall a b, (a < L)%nat -> (b < L)%nat -> get t [a; b] = nth a f1 0 * nth b f2 0) -> fget2 t z1 z2 = zget f1 z1 * zget f2 z2.
Proof.
  intros Hs H1 H2 Hg. unfold fget2. rewrite Hs. cbn [nth]. 
  destruct (Z.leb_spec 0 z1) as [A|A]; cbn [andb]; [|rewrite zget_neg by exact A; ring].
  destruct (Z.ltb_spec z1 (Z.of_nat L)) as [B|B]; cbn [andb]; [|rewrite zget_big by (rewrite H1; exact B); ring].
  destruct (Z.leb_spec 0 z2) as [C|C]; cbn [andb]; [|rewrite (zget_neg f2) by exact C; ring].
  destruct (Z.ltb_spec z2 (Z.of_nat L)) as [D|D]; [|rewrite (zget_big f2) by (rewrite H2; exact D); ring].
  rewrite Hg by lia. rewrite <- !zget_nat. rewrite !Z2Nat.id by lia. reflexivity.
Qed.
Lemma one_band t (f1 f2 : list K) L h v : shp t = [L; L] -> List.length f1 = L -> List.length f2 = L -> (2 <= L)%nat -> (L mod 2 = 0)%nat -> (0 < h)%nat -> (L <= v)%nat -> (h mod 2 = 0)%nat -> (v mod 2 = 0)%nat ->
  (forall a b, (a < L)%nat -> (b < L)%nat -> get t [a; b] = nth a f1 0 * nth b f2 0) ->
  exists r, construct_strided_conv2d_matrix t h v 2 "sameshift" = Ok r /\ s_tag r = ttag t /\ s_rows r = (v / 2 * (h / 2))%nat /\ s_cols r = (v * h)%nat /\ s_wf r /\
  forall p q k l, (p < v / 2)%nat -> (q < h / 2)%nat -> (k < h)%nat -> (l < v)%nat ->
    mget r (p * (h / 2) + q) (cix h k l) = rowv f1 L q k * rowv f2 L p l /\
    (st r (p * (h / 2) + q) (cix h k l) <-> (l <= L / 2 + 2 * p < l + L /\ k <= L / 2 + 2 * q < k + L)%nat).
Proof.
  intros Hs H1 H2 HL He Hh Hv Hhe Hve Hg. pose proof (Nat.div_mod L 2 ltac:(lia)) as DL. rewrite He in DL. pose proof (Nat.div_mod h 2 ltac:(lia)) as Dh. pose proof (Nat.div_mod v 2 ltac:(lia)) as Dv.
  assert (Hm : conv_mode "sameshift") by (unfold conv_mode; tauto).
  destruct (construct_strided_conv2d_matrix_ok t L L h v 2 "sameshift" Hs ltac:(lia) ltac:(lia) Hh ltac:(lia) ltac:(lia) Hm ltac:(discriminate) ltac:(intros; lia)) as (r & E & R1 & R2 & R3 & R4 & R5).
  pose proof (st_strided2d t L L h v 2 "sameshift" r Hs ltac:(lia) ltac:(lia) Hh ltac:(lia) ltac:(lia) Hm ltac:(discriminate) ltac:(intros; lia) E) as R6.
  cbn [String.eqb Ascii.eqb Bool.eqb] in R2, R5, R6. change (conv_outlen "sameshift" L h) with h in *. change (conv_outlen "sameshift" L v) with v in *.
  assert (Est : conv_start "sameshift" L = (L / 2 - 1)%nat) by (unfold conv_start; cbn [String.eqb Ascii.eqb Bool.eqb]; lia). rewrite Est in R5, R6.
  replace ((h - 1 + 2 - 1) / 2)%nat with (h / 2)%nat in R2, R5, R6 by (f_equal; lia). replace ((v - 1 + 2 - 1) / 2)%nat with (v / 2)%nat in R2, R5, R6 by (f_equal; lia).
  exists r. repeat (split; [assumption|]). intros p q k l Hp Hq Hk Hl. unfold cix. rewrite R5, R6 by assumption. split.
  - rewrite (fget2_prod t f1 f2 L) by assumption. unfold rowv. f_equal; f_equal; lia.
  - lia.
Qed.

(** ** the raw matrix *)
Definition pick f1 f2 (n i : nat) : list K := if Nat.ltb i (n / 2) then f1 else f2.
Lemma len_pick f1 f2 n i L : List.length f1 = L -> List.length f2 = L -> List.length (pick f1 f2 n i) = L.
Proof. unfold pick. destruct (Nat.ltb i (n / 2)); auto. Qed.
Lemma raw_2d_ok g lo hi L h v fl : List.length lo = L -> List.length hi = L -> (2 <= L)%nat -> (L mod 2 = 0)%nat -> (0 < h)%nat -> (L <= v)%nat -> (h mod 2 = 0)%nat -> (v mod 2 = 0)%nat ->
  exists R, raw_2d (create_tensor lo fl g) (create_tensor hi fl g) h v "sameshift" = Ok R /\ s_tag R = g /\ s_rows R = (v * h)%nat /\ s_cols R = (v * h)%nat /\ s_wf R /\
  forall i j k l, (i < h)%nat -> (j < v)%nat -> (k < h)%nat -> (l < v)%nat ->
    mget R (rix h v i j) (cix h k l) = rowv (pick (mayrev fl lo) (mayrev fl hi) h i) L (ksel h i) k * rowv (pick (mayrev fl lo) (mayrev fl hi) v j) L (ksel v j) l /\
    (st R (rix h v i j) (cix h k l) <-> (l <= L / 2 + 2 * ksel v j < l + L /\ k <= L / 2 + 2 * ksel h i < k + L)%nat).
Proof.
  intros Hlo Hhi HL He Hh Hv Hhe Hve. destruct (filt2 lo hi fl g L Hlo Hhi) as (f & Ef & Hf1 & Hf2).
  assert (Htag : ttag f = g).
  { unfold construct_2d_filt in Ef. apply rbind_ok in Ef as (s & Es & Ef). injection Ef as <-. cbn [unsqueeze ttag]. revert Es. unfold stack.
    destruct (forallb _ _); [|discriminate]. intros [= <-]. reflexivity. }
  assert (Hlo' : List.length (mayrev fl lo) = L) by (rewrite mayrev_length; exact Hlo). assert (Hhi' : List.length (mayrev fl hi) = L) by (rewrite mayrev_length; exact Hhi).
  set (lo' := mayrev fl lo) in *. set (hi' := mayrev fl hi) in *.
  change (2 ^ 2)%nat with 4%nat in *. change (repeat L 2) with [L; L] in *.
  unfold raw_2d. rewrite Ef. cbn [rbind]. unfold four_filters.
  assert (Hsq : shp (squeeze f 1) = [4; L; L]%nat) by (apply (shp_squeeze_app f [4%nat] [L; L] 1); [exact Hf1|reflexivity]). rewrite Hsq. cbn [nth Nat.eqb]. cbn [rbind].
  set (ft := fun c => squeeze (narrow (squeeze f 1) 0 c 1) 0).
  rewrite map_map. change (map (fun x => squeeze (narrow (squeeze f 1) 0 x 1) 0) (seq 0 4)) with (map ft (seq 0 4)).
  assert (Fs : forall c, shp (ft c) = [L; L]).
  { intros c. unfold ft. apply (shp_squeeze_app _ [] [L; L] 0); [|reflexivity]. rewrite shp_narrow, Hsq. reflexivity. }
  assert (Ft : forall c, ttag (ft c) = g) by (intros c; unfold ft; rewrite ttag_squeeze; change (ttag (squeeze f 1) = g); rewrite ttag_squeeze; exact Htag).
  assert (Fg : forall c a b, (c < 4)%nat -> (a < L)%nat -> (b < L)%nat -> get (ft c) [a; b] = get f [c; 0; a; b]%nat).
  { intros c a b Hc Ha Hb. unfold ft. rewrite (get_squeeze_app _ [] [L; L] 0 [] [a; b]); [|rewrite shp_narrow, Hsq; reflexivity|reflexivity|reflexivity]. cbn [app].
    rewrite get_narrow by (rewrite Hsq; valids). cbn [nth updn Nat.add]. apply (get_squeeze_app f [4%nat] [L; L] 1 [c] [a; b] Hf1 eq_refl eq_refl). }
  set (f1 := fun c => if Nat.eqb (c mod 2) 0 then lo' else hi'). set (f2 := fun c => if Nat.ltb c 2 then lo' else hi').
  assert (L1 : forall c, List.length (f1 c) = L) by (intros c; unfold f1; destruct (Nat.eqb (c mod 2) 0); assumption).
  assert (L2 : forall c, List.length (f2 c) = L) by (intros c; unfold f2; destruct (Nat.ltb c 2); assumption).
  assert (Fp : forall c a b, (c < 4)%nat -> (a < L)%nat -> (b < L)%nat -> get (ft c) [a; b] = nth a (f1 c) 0 * nth b (f2 c) 0).
  { intros c a b Hc Ha Hb. rewrite Fg by assumption. rewrite (Hf2 c [a; b] Hc) by valids. destruct c as [|[|[|[|c]]]]; [| | | |lia]; unfold f1, f2; cbn [chanD PRKernel.bsels PRKernel.bsel map taps Nat.eqb]; try change (Nat.ltb 0 2) with true; try change (Nat.ltb 1 2) with true; try change (Nat.ltb 2 2) with false; try change (Nat.ltb 3 2) with false; try change (0 mod 2)%nat with 0%nat; try change (1 mod 2)%nat with 1%nat; try change (2 mod 2)%nat with 0%nat; try change (3 mod 2)%nat with 1%nat; cbn [Nat.eqb]; ring. }
  set (C := (v * h)%nat). set (q := (v / 2 * (h / 2))%nat).
  destruct (rmap_all (fun t => construct_strided_conv2d_matrix t h v 2 "sameshift") (fun t r => exists c, (c < 4)%nat /\ t = ft c /\
     s_tag r = g /\ s_rows r = q /\ s_cols r = C /\ s_wf r /\ forall p q k l, (p < v / 2)%nat -> (q < h / 2)%nat -> (k < h)%nat -> (l < v)%nat ->
    mget r (p * (h / 2) + q) (cix h k l) = rowv (f1 c) L q k * rowv (f2 c) L p l /\
    (st r (p * (h / 2) + q) (cix h k l) <-> (l <= L / 2 + 2 * p < l + L /\ k <= L / 2 + 2 * q < k + L)%nat)) (map ft (seq 0 4))) as (ms & EM & LM & PM).
  { intros t Ht. apply in_map_iff in Ht as (c & <- & Hc). apply in_seq in Hc. destruct (one_band (ft c) (f1 c) (f2 c) L h v) as (r & E & R1 & R2 & R3 & R4 & R5); auto; [intros; apply Fp; lia|].
    exists r. split; [exact E|]. exists c. split; [lia|]. split; [reflexivity|]. rewrite Ft in R1. auto 10. }
  rewrite EM. cbn [rbind].
  (* the bands are in the order of the filters *)
  assert (PM' : forall c, (c < 4)%nat -> let r := nth c ms (mkS g 0 0 []) in s_tag r = g /\ s_rows r = q /\ s_cols r = C /\ s_wf r /\ forall p q k l, (p < v / 2)%nat -> (q < h / 2)%nat -> (k < h)%nat -> (l < v)%nat ->
    mget r (p * (h / 2) + q) (cix h k l) = rowv (f1 c) L q k * rowv (f2 c) L p l /\
    (st r (p * (h / 2) + q) (cix h k l) <-> (l <= L / 2 + 2 * p < l + L /\ k <= L / 2 + 2 * q < k + L)%nat)).
  { intros c Hc. cbv zeta. assert (Ex : construct_strided_conv2d_matrix (ft c) h v 2 "sameshift" = Ok (nth c ms (mkS g 0 0 []))).
    { clear PM. cbn [seq map] in EM. cbn [rmap] in EM. apply rbind_ok in EM as (r0 & E0 & EM). apply rbind_ok in EM as (l0 & E1 & EM). apply rbind_ok in E1 as (r1 & E1 & EM1). apply rbind_ok in EM1 as (l1 & E2 & EM1).
      apply rbind_ok in E2 as (r2 & E2 & EM2). apply rbind_ok in EM2 as (l2 & E3 & EM2). apply rbind_ok in E3 as (r3 & E3 & EM3). cbn in EM3. injection EM3 as <-. injection EM2 as <-. injection EM1 as <-. injection EM as <-.
      destruct c as [|[|[|[|c]]]]; [assumption|assumption|assumption|assumption|lia]. }
    destruct (one_band (ft c) (f1 c) (f2 c) L h v) as (r & E & R1 & R2 & R3 & R4 & R5); auto. rewrite Ex in E. injection E as <-. rewrite Ft in R1. auto. }
  rewrite map_length, seq_length in LM. destruct ms as [|a ms]; [discriminate|]. cbn [List.length] in LM. clear PM EM.
  destruct (PM' 0%nat ltac:(lia)) as (A1 & A2 & A3 & A4 & A5). cbn [nth] in A1, A2, A3, A4, A5.
  destruct (sp_cats_ok q C g (mkS g 0 0 []) ms a A4 A3) as (R & ER & R1 & R2 & R3 & R4 & R5 & R6).
  { apply Forall_forall. intros b Hb. destruct (In_nth ms b (mkS g 0 0 []) Hb) as (c & Hc & <-). destruct (PM' (S c) ltac:(lia)) as (B1 & B2 & B3 & B4 & _). auto. }
  exists R. split; [exact ER|]. split; [congruence|]. split; [|split; [exact R3|split; [exact R4|]]].
  { rewrite R2, A2. pose proof (Nat.div_mod h 2 ltac:(lia)). pose proof (Nat.div_mod v 2 ltac:(lia)). unfold q, C. replace (List.length ms) with 3%nat by lia. nia. }
  intros i j k l Hi Hj Hk Hl. pose proof (ksel_lt h i Hhe Hi) as Ki. pose proof (ksel_lt v j Hve Hj) as Kj. pose proof (bcode_lt h v i j) as Hc.
  assert (Hcell : (ksel v j * (h / 2) + ksel h i < q)%nat) by (apply cell_lt; assumption).
  assert (Hf : f1 (bcode h v i j) = pick lo' hi' h i /\ f2 (bcode h v i j) = pick lo' hi' v j) by (unfold f1, f2, bcode, pick; destruct (Nat.ltb i (h / 2)), (Nat.ltb j (v / 2)); auto).
  destruct Hf as [<- <-]. unfold rix. fold q. destruct (bcode h v i j) as [|c] eqn:Eb.
  - rewrite Nat.mul_0_l, Nat.add_0_l. destruct (R5 (ksel v j * (h / 2) + ksel h i)%nat (cix h k l) ltac:(lia)) as [-> ->]. apply A5; assumption.
  - destruct (R6 c (ksel v j * (h / 2) + ksel h i)%nat (cix h k l) ltac:(lia) Hcell) as [H1 H2]. rewrite A2 in H1, H2.
    replace (S c * q + (ksel v j * (h / 2) + ksel h i))%nat with (q + (c * q + (ksel v j * (h / 2) + ksel h i)))%nat by lia. rewrite H1, H2.
    destruct (PM' (S c) Hc) as (_ & _ & _ & _ & B5). cbn [nth] in B5. apply B5; assumption.
Qed.
End B2.

(** ** orthogonality *)
Definition trunc2 (L h v i j : nat) : Prop := truncated L h i \/ truncated L v j.
Lemma truncated_dec L n i : {truncated L n i} + {~ truncated L n i}.
Proof.
  unfold truncated. destruct (lt_dec (2 * ksel n i + 1) (L / 2)); [left; auto|]. destruct (le_dec n (L / 2 + 2 * ksel n i)); [left; auto|right; lia].
Defined.
Lemma length_filter_flat {A B} (p : B -> bool) (f : A -> list B) l : List.length (filter p (flat_map f l)) = fold_right (fun a n => List.length (filter p (f a)) + n) 0 l.
Proof. induction l as [|a l IH]; [reflexivity|]. cbn [flat_map fold_right]. rewrite filter_app, app_length, IH. reflexivity. Qed.
(** counting in a grid *)
Lemma seq_grid w h : seq 0 (w * h) = flat_map (fun l => map (fun k => l * h + k) (seq 0 h)) (seq 0 w).
Proof.
  induction w as [|w IH]; [reflexivity|]. rewrite seq_S, flat_map_app, <- IH. cbn [Nat.mul flat_map Nat.add]. rewrite app_nil_r, (Nat.add_comm h (w * h)), seq_app. f_equal. cbn [Nat.add].
  clear IH. generalize (w * h). intros s. induction h as [|h IH]; [reflexivity|]. rewrite seq_S, IH, seq_S, map_app. reflexivity.
Qed.
Lemma count_grid w h (p : nat -> bool) (a b : nat -> bool) : (forall l k, l < w -> k < h -> p (l * h + k) = a l && b k) ->
  List.length (filter p (seq 0 (w * h))) = List.length (filter a (seq 0 w)) * List.length (filter b (seq 0 h)).
Proof.
  intros H. rewrite seq_grid, length_filter_flat.
  assert (G : forall ls, (forall l, In l ls -> l < w) -> fold_right (fun l n => List.length (filter p (map (fun k => l * h + k) (seq 0 h))) + n) 0 ls = List.length (filter a ls) * List.length (filter b (seq 0 h))).
  { induction ls as [|l ls IH]; intros Hl; [reflexivity|]. cbn [fold_right filter]. rewrite IH by (intros; apply Hl; right; assumption).
    assert (E : List.length (filter p (map (fun k => l * h + k) (seq 0 h))) = if a l then List.length (filter b (seq 0 h)) else 0).
    { assert (Hl' : l < w) by (apply Hl; left; reflexivity). transitivity (List.length (filter (fun k => a l && b k) (seq 0 h))).
      - assert (Hk : forall k, In k (seq 0 h) -> k < h) by (intros k Hk; apply in_seq in Hk; lia). clear IH. induction (seq 0 h) as [|k ks IHk]; [reflexivity|]. cbn [map filter].
        rewrite (H l k Hl' (Hk k (or_introl eq_refl))). destruct (a l && b k); cbn [List.length]; rewrite IHk by (intros; apply Hk; right; assumption); reflexivity.
      - destruct (a l); cbn [andb]; [reflexivity|]. clear. induction (seq 0 h); [reflexivity|assumption]. }
    rewrite E. destruct (a l); cbn [List.length Nat.mul]; lia. }
  apply G. intros l Hl. apply in_seq in Hl. lia.
Qed.
(** how many of the L taps of a shifted filter fall inside a signal of length n *)
Definition inside (L n x : nat) : nat := Nat.min (L / 2 + 2 * x + 1) n - Nat.min (2 * x + 1 - L / 2) n.
Lemma inside_count L n x : L mod 2 = 0 -> 2 <= L -> List.length (filter (fun c => Nat.leb c (L / 2 + 2 * x) && Nat.ltb (L / 2 + 2 * x) (c + L)) (seq 0 n)) = inside L n x.
Proof.
  intros He H2. pose proof (Nat.div_mod L 2 ltac:(lia)) as DL. unfold inside. rewrite <- count_interval by lia. f_equal. apply filter_ext. intros c. apply eq_true_iff_eq. rewrite !andb_true_iff, !Nat.leb_le, !Nat.ltb_lt. lia.
Qed.
Lemma inside_bounds L n i : L mod 2 = 0 -> 2 <= L -> L <= n -> n mod 2 = 0 -> i < n -> 0 < inside L n (ksel n i) <= L /\ (inside L n (ksel n i) = L <-> ~ truncated L n i).
Proof.
  intros He H2 HL Hn Hi. pose proof (Nat.div_mod L 2 ltac:(lia)) as DL. pose proof (Nat.div_mod n 2 ltac:(lia)) as Dn. pose proof (ksel_lt n i Hn Hi). unfold inside, truncated. lia.
Qed.

Section B2O.
Context {K : CRing}.
Add Ring Kring2 : (cr_th K).
Open Scope K_scope.
Variable LA : linalg K.
Hypothesis HD : domain K.
Hypothesis HR : formally_real K.
Implicit Types (m : smat K) (w : wavelet K).

(** all raw rows of one dimension are independent *)
Lemma raw_full w L n (x : nat -> K) : bank_ok w L -> boundary_independent L (dec_lo w) (dec_hi w) -> (L <= n)%nat -> (n mod 2 = 0)%nat ->
  (forall k, (k < n)%nat -> sumf n (fun i => x i * rowv (fsel w n i) L (ksel n i) k) = 0) -> forall i, (i < n)%nat -> x i = 0.
Proof.
  intros B HI HL Hn Hx. pose proof (ob_even _ _ _ _ _ B) as He. pose proof (ob_two _ _ _ _ _ B) as H2. pose proof (Nat.div_mod L 2 ltac:(lia)) as DL.
  assert (Hc : forall p, (p < n)%nat -> ~ truncated L n p -> x p = 0).
  { intros p Hp Ht. transitivity (dot n (fun k => sumf n (fun i => x i * rowv (fsel w n i) L (ksel n i) k)) (rowv (fsel w n p) L (ksel n p))).
    - unfold dot. rewrite (sumf_ext n _ (fun k => sumf n (fun i => x i * (rowv (fsel w n i) L (ksel n i) k * rowv (fsel w n p) L (ksel n p) k)))).
      2:{ intros k Hk. rewrite <- sumf_mul_r. apply sumf_ext. intros i Hi. ring. }
      rewrite sumf_swap. rewrite (sumf_single n p); [|exact Hp|].
      + rewrite sumf_mul_l. fold (dot n (rowv (fsel w n p) L (ksel n p)) (rowv (fsel w n p) L (ksel n p))). rewrite (raw_dot w L n p p B Hn Hp Hp); [|unfold truncated in Ht; lia|unfold truncated in Ht; lia].
        unfold delta. rewrite Nat.eqb_refl. ring.
      + intros i Hi Hip. rewrite sumf_mul_l. fold (dot n (rowv (fsel w n i) L (ksel n i)) (rowv (fsel w n p) L (ksel n p))). rewrite (raw_dot w L n i p B Hn Hi Hp); [|unfold truncated in Ht; lia|unfold truncated in Ht; lia].
        unfold delta. destruct (Nat.eqb_spec i p); [contradiction|]. ring.
    - unfold dot. apply sumf_zero. intros k Hk. rewrite (Hx k Hk). ring. }
  set (tb := fun i => if truncated_dec L n i then true else false). set (todo := filter tb (seq 0 n)).
  assert (Hto : forall i, In i todo <-> (i < n)%nat /\ truncated L n i).
  { intros i. unfold todo. rewrite filter_In, in_seq. unfold tb. destruct (truncated_dec L n i); split; intros [H1 H3]; try discriminate; split; auto; try lia; contradiction. }
  assert (Hnd : NoDup todo) by apply NoDup_filter, seq_NoDup.
  assert (Hx' : forall i, In i todo -> x i = 0).
  { apply (raw_independent HR w L n todo B HI HL Hn Hnd Hto x). intros k Hk. unfold todo. rewrite sumL_filter_seq. transitivity (sumf n (fun i => x i * rowv (fsel w n i) L (ksel n i) k)); [|apply (Hx k Hk)]. apply sumf_ext. intros i Hi. unfold tb. destruct (truncated_dec L n i) as [T|T]; [reflexivity|]. rewrite (Hc i Hi T). ring. }
  intros i Hi. destruct (truncated_dec L n i) as [T|T]; [apply Hx', Hto; auto|apply Hc; assumption].
Qed.

Lemma sumL_memn (l : list nat) n (F : nat -> K) : NoDup l -> (forall i, In i l -> (i < n)%nat) -> sumL l F = sumf n (fun i => if memn i l then F i else 0).
Proof.
  intros Hnd Hlt. induction l as [|x l IH].
  - symmetry. apply sumf_zero. reflexivity.
  - apply NoDup_cons_iff in Hnd as [Hx Hnd]. change (sumL (x :: l) F) with (F x + sumL l F). rewrite IH; [|exact Hnd|intros; apply Hlt; right; assumption].
    rewrite (sumf_ext n (fun i => if memn i (x :: l) then F i else 0) (fun i => (if Nat.eqb i x then F i else 0) + (if memn i l then F i else 0))).
    + rewrite sumf_add. f_equal. rewrite (sumf_single n x); [rewrite Nat.eqb_refl; reflexivity|apply Hlt; left; reflexivity|]. intros k _ Hk. destruct (Nat.eqb_spec k x); [contradiction|reflexivity].
    + intros k _. unfold memn. cbn [existsb]. destruct (Nat.eqb_spec k x) as [->|_]; cbn [orb]; [|ring]. fold (memn x l). rewrite memn_false by exact Hx. ring.
Qed.

Variables (w : wavelet K) (L h v : nat) (R : smat K).
Hypothesis B : bank_ok w L.
Hypothesis HI : boundary_independent L (dec_lo w) (dec_hi w).
Hypothesis Hh : (L <= h)%nat.
Hypothesis Hv : (L <= v)%nat.
Hypothesis Hhe : (h mod 2 = 0)%nat.
Hypothesis Hve : (v mod 2 = 0)%nat.
Notation a := (fun i => rowv (fsel w h i) L (ksel h i)).
Notation b := (fun j => rowv (fsel w v j) L (ksel v j)).
Hypothesis Rr : s_rows R = (v * h)%nat.
Hypothesis Rc : s_cols R = (v * h)%nat.
Hypothesis Rw : s_wf R.
Hypothesis Rv : forall i j k l, (i < h)%nat -> (j < v)%nat -> (k < h)%nat -> (l < v)%nat -> mget R (rix h v i j) (cix h k l) = a i k * b j l.
Hypothesis Rs : forall i j k l, (i < h)%nat -> (j < v)%nat -> (k < h)%nat -> (l < v)%nat ->
  (st R (rix h v i j) (cix h k l) <-> (l <= L / 2 + 2 * ksel v j < l + L /\ k <= L / 2 + 2 * ksel h i < k + L)%nat).
Lemma even2 : (L mod 2 = 0 /\ 2 <= L)%nat.
Proof. split; [apply (ob_even _ _ _ _ _ B)|apply (ob_two _ _ _ _ _ B)]. Qed.
Lemma stored2 i j : (i < h)%nat -> (j < v)%nat -> stored_in_row R (rix h v i j) = (inside L v (ksel v j) * inside L h (ksel h i))%nat.
Proof.
  intros Hi Hj. destruct even2 as [He H2]. unfold stored_in_row. rewrite Rc. rewrite <- !inside_count by assumption. apply count_grid. intros l k Hl Hk.
  apply eq_true_iff_eq. rewrite existsb_pos. change ((exists x, In (rix h v i j, l * h + k, x)%nat (s_ent R)) <-> Nat.leb l (L / 2 + 2 * ksel v j) && Nat.ltb (L / 2 + 2 * ksel v j) (l + L) && (Nat.leb k (L / 2 + 2 * ksel h i) && Nat.ltb (L / 2 + 2 * ksel h i) (k + L)) = true). pose proof (Rs i j k l Hi Hj Hk Hl) as RS. unfold st, cix in RS. rewrite RS. rewrite !andb_true_iff, !Nat.leb_le, !Nat.ltb_lt. lia.
Qed.
Lemma todo2 i j : (i < h)%nat -> (j < v)%nat -> In (rix h v i j) (get_to_orthogonalize R (L * L)) <-> trunc2 L h v i j.
Proof.
  intros Hi Hj. destruct even2 as [He H2]. rewrite in_get_to, Rr, stored2 by assumption. pose proof (rix_lt h v i j Hhe Hve Hi Hj) as Hr.
  destruct (inside_bounds L h i He H2 Hh Hhe Hi) as [B1 E1]. destruct (inside_bounds L v j He H2 Hv Hve Hj) as [B2 E2]. unfold trunc2.
  set (p := inside L h (ksel h i)) in *. set (q := inside L v (ksel v j)) in *. split.
  - intros (_ & _ & Hne). destruct (truncated_dec L h i) as [T|T]; [auto|]. destruct (truncated_dec L v j) as [T'|T']; [auto|]. exfalso. apply Hne. rewrite (proj2 E1 T), (proj2 E2 T'). reflexivity.
  - intros Ht. split; [exact Hr|]. split; [nia|]. intros Heq. assert (p = L /\ q = L) as [P Q] by nia. tauto.
Qed.
Lemma dot2 i j i' j' : (i < h)%nat -> (j < v)%nat -> (i' < h)%nat -> (j' < v)%nat ->
  dot (v * h) (mget R (rix h v i j)) (mget R (rix h v i' j')) = dot v (b j) (b j') * dot h (a i) (a i').
Proof.
  intros Hi Hj Hi' Hj'. unfold dot. rewrite sumf_grid, <- sumf_mul_r. apply sumf_ext. intros l Hl. rewrite <- sumf_mul_l. apply sumf_ext. intros k Hk.
  fold (cix h k l). rewrite !Rv by assumption. ring.
Qed.
Lemma complete2 r r' : (r < v * h)%nat -> (r' < v * h)%nat -> ~ In r (get_to_orthogonalize R (L * L)) -> dot (v * h) (mget R r) (mget R r') = delta r r'.
Proof.
  intros Hr Hr' Hn. destruct (rix_surj h v r Hhe Hve Hr) as (i & j & Hi & Hj & <-). destruct (rix_surj h v r' Hhe Hve Hr') as (i' & j' & Hi' & Hj' & <-).
  rewrite todo2 in Hn by assumption. rewrite dot2 by assumption. unfold trunc2, truncated in Hn.
  rewrite (raw_dot w L v j j' B Hve Hj Hj') by lia. rewrite (raw_dot w L h i i' B Hhe Hi Hi') by lia.
  unfold delta. destruct (Nat.eqb_spec (rix h v i j) (rix h v i' j')) as [E|E].
  - apply rix_inj in E as [-> ->]; auto. rewrite !Nat.eqb_refl. ring.
  - destruct (Nat.eqb_spec j j') as [->|_]; [|ring]. destruct (Nat.eqb_spec i i') as [->|_]; [contradiction|ring].
Qed.
Lemma sumf_rix (F : nat -> K) : sumf (v * h) F = sumf h (fun i => sumf v (fun j => F (rix h v i j))).
Proof.
  assert (P : forall n (s : nat -> nat) (t : nat -> nat) (G : nat -> K), (forall p, (p < n)%nat -> (s p < n)%nat /\ t (s p) = p) -> (forall p, (p < n)%nat -> (t p < n)%nat /\ s (t p) = p) -> sumf n G = sumf n (fun p => G (s p))).
  { intros n s t G H1 H3. rewrite (sumf_ext n (fun p => G (s p)) (fun p => sumf n (fun r => if Nat.eqb r (s p) then G r else 0))).
    2:{ intros p Hp. destruct (H1 p Hp) as [Hs _]. rewrite (sumf_single n (s p)); [rewrite Nat.eqb_refl; reflexivity|exact Hs|]. intros r _ Hr. destruct (Nat.eqb_spec r (s p)); [contradiction|reflexivity]. }
    rewrite sumf_swap. apply sumf_ext. intros r Hr. destruct (H3 r Hr) as [Ht Hst]. rewrite (sumf_single n (t r)); [rewrite Hst, Nat.eqb_refl; reflexivity|exact Ht|].
    intros p Hp Hne. destruct (Nat.eqb_spec r (s p)) as [E|_]; [|reflexivity]. exfalso. apply Hne. destruct (H1 p Hp) as [_ <-]. rewrite E. reflexivity. }
  destruct even2 as [He H2]. assert (H0 : (0 < h)%nat) by lia.
  rewrite (P (v * h)%nat (fun p => rix h v (p mod h) (p / h)) (fun r => cix h (rixi h v r) (rixj h v r)) F).
  - rewrite sumf_grid, sumf_swap. apply sumf_ext. intros i Hi. apply sumf_ext. intros j Hj. f_equal.
    rewrite (Nat.add_comm (j * h) i), Nat.mod_add, Nat.div_add by lia. rewrite Nat.mod_small, Nat.div_small by exact Hi. reflexivity.
  - intros p Hp. assert (Hq : (p mod h < h)%nat) by (apply Nat.mod_upper_bound; lia). assert (Hd : (p / h < v)%nat) by (apply Nat.div_lt_upper_bound; lia).
    pose proof (rix_lt h v _ _ Hhe Hve Hq Hd) as Hl. split; [exact Hl|]. destruct (rix_inv h v _ Hhe Hve Hl) as (I1 & I2 & I3).
    apply rix_inj in I3 as [-> ->]; auto. unfold cix. rewrite (Nat.div_mod p h) at 3 by lia. lia.
  - intros r Hr. destruct (rix_inv h v r Hhe Hve Hr) as (I1 & I2 & I3). split; [unfold cix; nia|]. unfold cix. rewrite (Nat.add_comm _ (rixi h v r)), Nat.mod_add, Nat.div_add by lia. rewrite Nat.mod_small, Nat.div_small by exact I1. exact I3.
Qed.
Lemma independent2 : independent (v * h) (get_to_orthogonalize R (L * L)) (mget R).
Proof.
  intros c Hc r0 Hr0. set (todo := get_to_orthogonalize R (L * L)) in *.
  assert (Hlt : forall r, In r todo -> (r < v * h)%nat) by (intros r Hr; apply in_get_to in Hr; lia).
  assert (Hnd : NoDup todo) by apply get_to_nodup.
  set (C := fun i j => if memn (rix h v i j) todo then c (rix h v i j) else 0).
  assert (E : forall k l, (k < h)%nat -> (l < v)%nat -> sumf h (fun i => sumf v (fun j => C i j * b j l) * a i k) = 0).
  { intros k l Hk Hl. assert (Hcol : (cix h k l < v * h)%nat) by (unfold cix; nia). pose proof (Hc _ Hcol) as E0.
    rewrite (sumL_memn todo (v * h) (fun r => c r * mget R r (cix h k l)) Hnd Hlt) in E0. rewrite sumf_rix in E0.
    transitivity (sumf h (fun i => sumf v (fun j => if memn (rix h v i j) todo then c (rix h v i j) * mget R (rix h v i j) (cix h k l) else 0))); [|exact E0].
    apply sumf_ext. intros i Hi. rewrite <- sumf_mul_r. apply sumf_ext. intros j Hj. unfold C. rewrite Rv by assumption. destruct (memn (rix h v i j) todo); ring. }
  assert (E1 : forall i l, (i < h)%nat -> (l < v)%nat -> sumf v (fun j => C i j * b j l) = 0).
  { intros i l Hi Hl. apply (raw_full w L h (fun i => sumf v (fun j => C i j * b j l)) B HI Hh Hhe); [|exact Hi]. intros k Hk. apply E; assumption. }
  assert (E2 : forall i j, (i < h)%nat -> (j < v)%nat -> C i j = 0).
  { intros i j Hi Hj. apply (raw_full w L v (fun j => C i j) B HI Hv Hve); [|exact Hj]. intros l Hl. apply E1; assumption. }
  destruct (rix_surj h v r0 Hhe Hve (Hlt r0 Hr0)) as (i & j & Hi & Hj & <-). specialize (E2 i j Hi Hj). unfold C in E2. rewrite (proj2 (memn_spec _ _) Hr0) in E2. exact E2.
Qed.
Theorem orthogonalize2_ok method : la_ok LA method ->
  exists A, orthogonalize LA R (L * L) method = Ok A /\ s_tag A = s_tag R /\ s_rows A = (v * h)%nat /\ s_cols A = (v * h)%nat /\ s_wf A /\ orthogonal (v * h) (mget A) /\
  (forall i j k l, (i < h)%nat -> (j < v)%nat -> (k < h)%nat -> (l < v)%nat -> ~ trunc2 L h v i j -> mget A (rix h v i j) (cix h k l) = a i k * b j l).
Proof.
  intros HLA. destruct even2 as [He H2]. pose proof (Nat.div_mod L 2 ltac:(lia)) as DL. pose proof (Nat.div_mod h 2 ltac:(lia)) as Dh. pose proof (Nat.div_mod v 2 ltac:(lia)) as Dv.
  destruct (orthogonalize_ok LA HD R (v * h) (L * L) method HLA Rw Rr Rc) as (A & EA & A1 & A2 & A3 & A4 & A5 & A6 & _).
  - intros _ Hne. rewrite <- (rix_last h v Hhe Hve) by lia. apply todo2; [lia|lia|].
    destruct (get_to_orthogonalize R (L * L)) as [|r l] eqn:Eg; [congruence|]. assert (Hr : In r (get_to_orthogonalize R (L * L))) by (rewrite Eg; left; reflexivity).
    assert (Hr' : (r < v * h)%nat) by (apply in_get_to in Hr; lia). destruct (rix_surj h v r Hhe Hve Hr') as (i & j & Hi & Hj & <-). apply todo2 in Hr; auto.
    unfold trunc2, truncated in *. left. right. pose proof (ksel_lt h i Hhe Hi). pose proof (ksel_lt v j Hve Hj). unfold ksel at 1. destruct (Nat.ltb_spec (h - 1) (h / 2)); lia.
  - apply complete2.
  - apply independent2.
  - exists A. split; [exact EA|]. repeat (split; [assumption|]). split; [apply (orthonormal_rows_orthogonal HD _ _ A6)|].
    intros i j k l Hi Hj Hk Hl Ht. rewrite A5; [apply Rv; assumption|]. rewrite todo2 by assumption. exact Ht.
Qed.
End B2O.
