(** Concrete cases for C42-C45 (Daubechies-4 over the reals), and the calls on which the claims C20, C21, C42, C44 and
    C45 fail (integers, a two-tap filter: no row needs orthogonalising, so the linear algebra used is irrelevant). *)
From Coq Require Import List Arith ZArith Lia Bool String Reals Lra.
From Verif Require Import Base Sums Tensor TensorFacts Util Accept Plumb Spec Conv2 Sep Sparse SparseFacts SpecMat SpecMatN Mat1 MatN MatOrth Examples PropsMat1 MatNFacts MatNLoop PropsMatN PropsMatN2 PropsMatNon MatNOp Packets RealLA ExReal ExMat1.
Import ListNotations.
Local Open Scope nat_scope.

(** C43: db2, two levels, sizes 11 and 9 along the axes -1 and 0 (in this order) of a 9 x 2 x 11 tensor *)
Example ex_C43 method : orth_supported method = true -> exists o o' c r y,
  new_mwavedecn 2 db2 (Some 2%Z) (AxSeq [-1; 0]%Z) method (Some "symmetric"%string) true = Ok o /\ mw2_call RLA o (exR [9; 2; 11]) = (o', Ok c) /\
  List.length (pc_items c) = 3 /\ new_mwaverecn 2 db2 (AxSeq [-1; 0]%Z) method true = Ok r /\
  snd (mr2_call RLA r (pc_items c)) = Ok y /\ agrees_on (exR [9; 2; 11]) y.
Proof.
  intros Hm. pose proof (RLA_ok method Hm) as HLA.
  destruct (proj2 (C43_accepts RLA RK_domain RK_formally_real db2 4 method Msymmetric HLA db2_ok db2_independent (Some 2%Z) [-1; 0]%Z (exR [9; 2; 11]) (exR_wf _) eq_refl)) as (o & o' & c & Ho & Hc).
  { split; [reflexivity|]. split; [split; [repeat constructor; cbn; lia|]|]. { cbn. repeat constructor; cbn; intuition lia. }
    exists 2%Z. split; [split; [reflexivity|lia]|]. right. intros d Hd _. cbn in Hd. do 3 (destruct d as [|d]; [cbn; lia|]). lia. }
  assert (Hr : new_mwaverecn 2 db2 (AxSeq [-1; 0]%Z) method true = Ok (mkMRN db2 [-1; 0]%Z method true [] None None false)).
  { unfold new_mwaverecn, ensure_axes. cbn. rewrite Hm. reflexivity. }
  destruct (C43_coefficients RLA RK_domain RK_formally_real db2 4 method Msymmetric HLA db2_ok db2_independent _ _ o _ o' c (exR_wf _) Ho Hc) as (lev & A & [-> _] & _ & Hcc).
  assert (Hlen : List.length (pc_items c) = 3) by (rewrite Hcc; reflexivity).
  destruct (C43_perfect_reconstruction RLA RK_domain RK_formally_real db2 4 method Msymmetric HLA db2_ok db2_independent _ _ o _ o' c _ (exR_wf _) Ho Hc Hr) as (y & E & Ha & _); [rewrite Hlen; discriminate|].
  exists o, o', c, (mkMRN db2 [-1; 0]%Z method true [] None None false), y. auto 10.
Qed.
(** C45: db2, one level (the smallest size is 5), sizes 5, 6, 8 *)
Example ex_C45 method : orth_supported method = true -> exists o o' c r y,
  new_mwavedecn 3 db2 (Some 4%Z) (AxSeq [-3; -2; -1]%Z) method (Some "zero"%string) true = Ok o /\ mw3_call RLA o (exR [5; 6; 8]) = (o', Ok c) /\
  List.length (pc_items c) = 2 /\ new_mwaverecn 3 db2 (AxSeq [-3; -2; -1]%Z) method true = Ok r /\
  snd (fst (mr3_call RLA r (pc_items c))) = Ok y /\ agrees_on (exR [5; 6; 8]) y.
Proof.
  intros Hm. pose proof (RLA_ok method Hm) as HLA.
  destruct (proj2 (C45_accepts RLA RK_domain RK_formally_real db2 4 method Mzero HLA db2_ok db2_independent (Some 4%Z) [-3; -2; -1]%Z (exR [5; 6; 8]) (exR_wf _) eq_refl)) as (o & o' & c & Ho & Hc).
  { split; [reflexivity|]. split; [split; [repeat constructor; cbn; lia|]|lia]. cbn. repeat constructor; cbn; intuition lia. }
  assert (Hr : new_mwaverecn 3 db2 (AxSeq [-3; -2; -1]%Z) method true = Ok (mkMRN db2 [-3; -2; -1]%Z method true [] None None false)).
  { unfold new_mwaverecn, ensure_axes. cbn. rewrite Hm. reflexivity. }
  destruct (C45_coefficients RLA RK_domain RK_formally_real db2 4 method Mzero HLA db2_ok db2_independent _ _ o _ o' c (exR_wf _) Ho Hc) as (lev & A & [-> _] & _ & Hcc).
  assert (Hlen : List.length (pc_items c) = 2) by (rewrite Hcc; reflexivity).
  destruct (C45_perfect_reconstruction RLA RK_domain RK_formally_real db2 4 method Mzero HLA db2_ok db2_independent _ _ o _ o' c _ (exR_wf _) Ho Hc Hr) as (y & E & Ha & _); [rewrite Hlen; lia|].
  exists o, o', c, (mkMRN db2 [-3; -2; -1]%Z method true [] None None false), y. auto 10.
Qed.
(** C42: histories mixing shapes and repeated inputs *)
Example ex_C42_2d : exists o, new_mwavedecn 2 db2 (Some 2%Z) (AxSeq [-2; -1]%Z) "qr" (Some "zero"%string) true = Ok o /\
  let xs := [exR [2; 8; 9]; exR [9; 8]; exR [4]; exR [2; 8; 9]; exR [2; 2]] in
  mwn_run (mw2_call RLA) o xs = map (fun x => snd (mw2_call RLA o x)) xs.
Proof.
  eexists. split; [reflexivity|]. apply (C42_wavedec2 RLA RK_domain RK_formally_real db2 4 "qr" (RLA_ok "qr" eq_refl) db2_ok db2_independent f32 2 [-2; -1]%Z (Some "zero"%string)); [reflexivity|].
  repeat constructor.
Qed.

(** C39 in two dimensions: db2, either method, every even size from 4 on *)
Example ex_C39_2d g h v method : 4 <= h -> 4 <= v -> h mod 2 = 0 -> v mod 2 = 0 -> orth_supported method = true ->
  exists A S, construct_boundary_a2 RLA g db2 h v method = Ok A /\ construct_boundary_s2 RLA g db2 h v method = Ok S /\ orthogonal (v * h) (mget A) /\ forall i j, mget S i j = mget A j i.
Proof.
  intros H1 H2 E1 E2 Hm. destruct (C39_boundary_matrices_2d RLA RK_domain RK_formally_real db2 4 method (RLA_ok method Hm) db2_ok db2_independent g h v H1 H2 E1 E2) as (A & S & C1 & C2 & _ & _ & _ & C3 & _ & _ & _ & C4 & _).
  exists A, S. auto.
Qed.
(** C43, C53 with separable=False: db2, two levels on a batch of two 8 x 12 images; one level on images of size 5 x 9 *)
Lemma ex_non level s b h v method : orth_supported method = true -> s = [b; h; v] -> 0 < b -> (0 < level)%Z -> 0 < bwn_levels (Z.to_nat level) 4 [h; v] -> exists o o' c,
  new_mwavedecn 2 db2 (Some level) (AxSeq [-2; -1]%Z) method (Some "zero"%string) false = Ok o /\ mw2_call RLA o (exR s) = (o', Ok c) /\ List.length (pc_items c) = S (bwn_levels (Z.to_nat level) 4 [h; v]).
Proof.
  intros Hm -> Hb Hl HJ. pose proof (RLA_ok method Hm) as HLA.
  destruct (proj2 (C43_nonseparable_accepts RLA RK_domain RK_formally_real db2 4 method HLA db2_ok db2_independent Mzero (Some level) [-2; -1]%Z (exR [b; h; v]) (exR_wf _) eq_refl)) as (o & o' & c & Ho & Hc).
  { split; [reflexivity|]. split; [split; [repeat constructor; cbn; lia|]|]. { cbn. repeat constructor; cbn; intuition lia. }
    exists level. split; [auto|]. split; [exact HJ|]. intros d Hd Hn. cbn in Hd, Hn. do 3 (destruct d as [|d]; [cbn in *; try lia; exfalso; apply Hn; auto|]). lia. }
  exists o, o', c. split; [exact Ho|]. split; [exact Hc|].
  destruct (C43_nonseparable_coefficients RLA RK_domain RK_formally_real db2 4 method HLA db2_ok db2_independent Mzero _ _ o _ o' c (exR_wf _) Ho Hc) as (lev & A & [-> _] & _ & ->).
  unfold bwn2_coeffs. cbn [pc_items List.length]. rewrite map_length, rev_length, seq_length. reflexivity.
Qed.
Example ex_C43_nonseparable method : orth_supported method = true -> exists o o' c r y,
  new_mwavedecn 2 db2 (Some 3%Z) (AxSeq [-2; -1]%Z) method (Some "zero"%string) false = Ok o /\ mw2_call RLA o (exR [2; 5; 9]) = (o', Ok c) /\ List.length (pc_items c) = 2 /\
  new_mwaverecn 2 db2 (AxSeq [-2; -1]%Z) method false = Ok r /\ snd (mr2_call RLA r (pc_items c)) = Ok y /\ agrees_on (exR [2; 5; 9]) y.
Proof.
  intros Hm. destruct (ex_non 3%Z [2; 5; 9] 2 5 9 method Hm eq_refl) as (o & o' & c & Ho & Hc & Hlen); [lia|lia|vm_compute; lia|].
  assert (Hr : new_mwaverecn 2 db2 (AxSeq [-2; -1]%Z) method false = Ok (mkMRN db2 [-2; -1]%Z method false [] None None false)) by (unfold new_mwaverecn, ensure_axes; cbn; rewrite Hm; reflexivity).
  destruct (C43_nonseparable_perfect_reconstruction RLA RK_domain RK_formally_real db2 4 method (RLA_ok method Hm) db2_ok db2_independent Mzero _ _ o _ o' c _ (exR_wf _) Ho Hc Hr) as (y & E & Ha & _).
  exists o, o', c, (mkMRN db2 [-2; -1]%Z method false [] None None false), y. auto 10.
Qed.
Theorem ex_C53 method : orth_supported method = true -> exists o o' c W,
  new_mwavedecn 2 db2 (Some 2%Z) (AxSeq [-2; -1]%Z) method (Some "zero"%string) false = Ok o /\ mw2_call RLA o (exR [2; 8; 12]) = (o', Ok c) /\ List.length (pc_items c) = 3 /\
  sparse_fwt_operator_2 o' = Ok W /\ s_rows W = 96 /\ cat 0 (map image_columns (pc_tensors c)) = Ok (mat_axis (mget W) 96 0 (image_columns (exR [2; 8; 12]))).
Proof.
  intros Hm. destruct (ex_non 2%Z [2; 8; 12] 2 8 12 method Hm eq_refl) as (o & o' & c & Ho & Hc & Hlen); [lia|lia|vm_compute; lia|].
  change (bwn_levels (Z.to_nat 2) 4 [8; 12]) with 2 in Hlen.
  destruct (C53_fwt_operator RLA RK_domain RK_formally_real db2 4 method Mzero (RLA_ok method Hm) db2_ok db2_independent _ o _ o' c 2 8 12 (exR_wf _) eq_refl Ho Hc) as (W & W1 & W2 & _ & _ & W3); [rewrite Hlen; exists 2; reflexivity|rewrite Hlen; exists 3; reflexivity|].
  exists o, o', c, W. auto 10.
Qed.
(** ** refutations *)
Definition exH : wavelet ZK := mkWav (K := ZK) [1; 1]%Z [-1; 1]%Z [1; 1]%Z [1; -1]%Z.
(** C42 without an explicit level *)
Theorem C42_level_none_2d_refuted : exists o, new_mwavedecn 2 exH None (AxSeq [-2; -1]%Z) "qr" (Some "zero"%string) true = Ok o /\
  counts (mwn_run (mw2_call noLA) o [exT [4; 4]; exT [8; 8]]) = [Ok 3; Ok 3] /\
  counts (map (fun x => snd (mw2_call noLA o x)) [exT [4; 4]; exT [8; 8]]) = [Ok 3; Ok 4].
Proof. eexists. split; [reflexivity|]. split; vm_compute; reflexivity. Qed.
(** C42 with a change of dtype *)
Theorem C42_dtype_2d_refuted : exists o, new_mwavedecn 2 exH (Some 1%Z) (AxSeq [-2; -1]%Z) "qr" (Some "zero"%string) true = Ok o /\
  counts (mwn_run (mw2_call noLA) o [exT' [4; 4] (float32, cpu); exT' [4; 4] (float64, cpu)]) = [Ok 2; Raise RuntimeError] /\
  counts (map (fun x => snd (mw2_call noLA o x)) [exT' [4; 4] (float32, cpu); exT' [4; 4] (float64, cpu)]) = [Ok 2; Ok 2].
Proof. eexists. split; [reflexivity|]. split; vm_compute; reflexivity. Qed.

(** C20, C21: MatrixWaverec3 adds the key aaa to the caller's dictionaries; repeating the call on the same container
    raises ValueError *)
Definition dict_sizes (l : list (pyval ZK)) : list nat := map (fun v => match v with PDict d => List.length d | _ => 1 end) l.
Theorem C20_C21_MatrixWaverec3_refuted : exists o r c,
  new_mwavedecn 3 exH (Some 1%Z) (AxSeq [-3; -2; -1]%Z) "qr" (Some "zero"%string) true = Ok o /\ snd (mw3_call noLA o (exT [1; 2; 4; 2])) = Ok c /\
  new_mwaverecn 3 exH (AxSeq [-3; -2; -1]%Z) "qr" true = Ok r /\
  let '(r', y, cs') := mr3_call noLA r (pc_items c) in
  (exists t, y = Ok t) /\ dict_sizes (pc_items c) = [1; 7] /\ dict_sizes cs' = [1; 8] /\
  snd (fst (mr3_call noLA r' cs')) = Raise ValueError.
Proof.
  eexists. eexists. eexists. split; [reflexivity|]. split; [vm_compute; reflexivity|]. split; [reflexivity|].
  match goal with |- context [mr3_call noLA ?r ?c] => let v := eval vm_compute in (mr3_call noLA r c) in let H := fresh in assert (H : mr3_call noLA r c = v) by (vm_compute; reflexivity); rewrite H; clear H end. cbv iota beta.
  split; [eexists; reflexivity|]. split; [reflexivity|]. split; [reflexivity|]. vm_compute. reflexivity.
Qed.
(** C45: with no level computed MatrixWaverec3 refuses the output of MatrixWavedec3 (MatrixWaverec2 accepts that of
    MatrixWavedec2) *)
Theorem C45_zero_level_refuted : exists o r c o2 r2 c2,
  new_mwavedecn 3 exH (Some 1%Z) (AxSeq [-3; -2; -1]%Z) "qr" (Some "zero"%string) true = Ok o /\ snd (mw3_call noLA o (exT [2; 2; 1])) = Ok c /\
  new_mwaverecn 3 exH (AxSeq [-3; -2; -1]%Z) "qr" true = Ok r /\ snd (fst (mr3_call noLA r (pc_items c))) = Raise ValueError /\
  new_mwavedecn 2 exH (Some 1%Z) (AxSeq [-2; -1]%Z) "qr" (Some "zero"%string) true = Ok o2 /\ snd (mw2_call noLA o2 (exT [2; 2; 1])) = Ok c2 /\
  new_mwaverecn 2 exH (AxSeq [-2; -1]%Z) "qr" true = Ok r2 /\ snd (mr2_call noLA r2 (pc_items c2)) = Ok (exT [2; 2; 1]).
Proof.
  do 6 eexists. split; [reflexivity|]. split; [vm_compute; reflexivity|]. split; [reflexivity|]. split; [vm_compute; reflexivity|].
  split; [reflexivity|]. split; [vm_compute; reflexivity|]. split; [reflexivity|]. vm_compute; reflexivity.
Qed.
(** C44: an image that varies along its second axis only.  The first (horizontal) detail tensor of wavedec2 is zero and
    the second one is not; for MatrixWavedec2(separable=True) it is the other way round *)
Definition exV : tensor ZK := mkT (K := ZK) f32 [4; 4] (map (fun i => Z.of_nat ((i mod 4) * (i mod 4))) (seq 0 16)).
Definition isz (t : tensor ZK) : bool := forallb (Z.eqb 0) (dat t).
Definition detz (c : pycoeffs ZK) : list (list bool) := map (fun v => match v with PTup l => map isz l | _ => [] end) (tl (pc_items c)).
Theorem C44_matrix_separable_refuted : exists o c c2, new_mwavedecn 2 exH (Some 1%Z) (AxSeq [-2; -1]%Z) "qr" (Some "zero"%string) true = Ok o /\ snd (mw2_call noLA o exV) = Ok c /\
  wavedec2 exV exH (Some "zero"%string) (Some 1%Z) (AxSeq [-2; -1]%Z) = Ok c2 /\
  detz c2 = [[true; false; true]] /\ detz c = [[false; true; true]].
Proof. do 3 eexists. split; [reflexivity|]. split; [vm_compute; reflexivity|]. split; [vm_compute; reflexivity|]. split; vm_compute; reflexivity. Qed.
(** non-separable MatrixWavedec2 agrees with wavedec2 here *)
Theorem C44_matrix_nonseparable_example : exists o c, new_mwavedecn 2 exH (Some 1%Z) (AxSeq [-2; -1]%Z) "qr" (Some "zero"%string) false = Ok o /\ snd (mw2_call noLA o exV) = Ok c /\
  detz c = [[true; false; true]].
Proof. do 2 eexists. split; [reflexivity|]. split; [vm_compute; reflexivity|]. vm_compute; reflexivity. Qed.
(** WaveletPacket2D: the node h of the non-separable object is zero and v is not; for separable=True it is the other
    way round *)
Theorem C44_packet_separable_refuted :
  let nodez sep k := match pk_get (packet2 exH "zero" [-2; -1]%Z sep) (fst (pk_transform (packet2 exH "zero" [-2; -1]%Z sep) (pk_new (packet2 exH "zero" [-2; -1]%Z sep) tt) exV (Some 1%Z))) (ks k) with
                     | (_, Ok t) => Some (isz t) | _ => None end in
  (nodez false "h"%string, nodez false "v"%string) = (Some true, Some false) /\ (nodez true "h"%string, nodez true "v"%string) = (Some false, Some true).
Proof. split; vm_compute; reflexivity. Qed.
