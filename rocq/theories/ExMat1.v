(** Concrete cases for C40-C42: Daubechies-4 over the reals on tensors of several lengths, and the call histories on
    which one MatrixWavedec object does not behave like fresh ones. *)
From Coq Require Import List Arith ZArith Lia Bool String Reals Lra.
From Verif Require Import Base Sums Tensor TensorFacts Util Accept Plumb Spec Sparse SparseFacts SpecMat Mat1 MatOrth Examples PropsMat1 Mat1Op RealLA ExReal.
Import ListNotations.
Local Open Scope nat_scope.

(** a 2 x 7 tensor of reals *)
Definition exR (s : list nat) : tensor RK := mkT (K := RK) f32 s (map (fun i => INR ((i * i + 3 * i) mod 17)) (seq 0 (prodl s))).
Lemma exR_wf s : wf (exR s).
Proof. unfold wf, exR. cbn [dat shp]. rewrite map_length, seq_length. reflexivity. Qed.

(** C40: db2, both methods, two levels, odd length 11, symmetric odd padding; the reconstruction agrees with the input *)
Example ex_C40 method : orth_supported method = true -> exists o o' c r y,
  new_mwavedec db2 (Some 2%Z) (AxInt (-1)) method (Some "symmetric"%string) = Ok o /\ mw_call RLA o (exR [2; 11]) = (o', Ok c) /\
  List.length (pc_items c) = 3 /\ new_mwaverec db2 (AxInt (-1)) method = Ok r /\
  snd (mr_call RLA r (pc_items c)) = Ok y /\ agrees_on (exR [2; 11]) y /\ shp y = [2; 12].
Proof.
  intros Hm. pose proof (RLA_ok method Hm) as HLA.
  destruct (proj2 (C40_accepts RLA RK_domain RK_formally_real db2 4 method Msymmetric HLA db2_ok db2_independent (Some 2%Z) (-1) (exR [2; 11]) (exR_wf _))) as (o & o' & c & Ho & Hc).
  { split; [reflexivity|]. split; [cbn; lia|]. split; [discriminate|]. lia. }
  assert (Hr : new_mwaverec db2 (AxInt (-1)) method = Ok (mkMR db2 [(-1)%Z] method [] None None false [])).
  { unfold new_mwaverec, ensure_axes. cbn. rewrite Hm. reflexivity. }
  destruct (C40_perfect_reconstruction RLA RK_domain RK_formally_real db2 4 method Msymmetric HLA db2_ok db2_independent _ _ o _ o' c _ (exR_wf _) Ho Hc Hr) as (y & E & Ha & Hs).
  destruct (C40_coefficients RLA RK_domain RK_formally_real db2 4 method Msymmetric HLA db2_ok db2_independent _ _ o _ o' c (exR_wf _) Ho Hc) as (lev & A & [-> _] & _ & Hcc).
  exists o, o', c, (mkMR db2 [(-1)%Z] method [] None None false []), y. split; [exact Ho|]. split; [exact Hc|]. split; [rewrite Hcc; reflexivity|]. split; [exact Hr|]. auto.
Qed.
(** C40 energy and C41: two levels on length 8 along axis 0 *)
Example ex_C40_C41 : exists o o' c ts W, new_mwavedec db2 (Some 5%Z) (AxInt 0) "gramschmidt" (Some "zero"%string) = Ok o /\ mw_call RLA o (exR [8; 3]) = (o', Ok c) /\
  pc_items c = map PT ts /\ List.length ts = 3 /\ energies ts = energy (exR [8; 3]) /\ sparse_fwt_operator o' = Ok W /\ cat 0 ts = Ok (mat_axis (mget W) 8 0 (exR [8; 3])).
Proof.
  pose proof (RLA_ok "gramschmidt" eq_refl) as HLA.
  destruct (proj2 (C40_accepts RLA RK_domain RK_formally_real db2 4 "gramschmidt" Mzero HLA db2_ok db2_independent (Some 5%Z) 0 (exR [8; 3]) (exR_wf _))) as (o & o' & c & Ho & Hc).
  { split; [reflexivity|]. split; [cbn; lia|]. split; [discriminate|]. lia. }
  destruct (C40_coefficients RLA RK_domain RK_formally_real db2 4 "gramschmidt" Mzero HLA db2_ok db2_independent _ _ o _ o' c (exR_wf _) Ho Hc) as (lev & A & [-> _] & _ & Hcc).
  assert (Hlen : List.length (pc_items c) = 3) by (rewrite Hcc; reflexivity).
  destruct (C40_energy RLA RK_domain RK_formally_real db2 4 "gramschmidt" Mzero HLA db2_ok db2_independent _ _ o _ o' c (exR_wf _) Ho Hc) as (ts & Et & He).
  { exists 4. reflexivity. }
  { rewrite Hlen. exists 2. reflexivity. }
  destruct (C41_fwt_operator RLA db2 4 "gramschmidt" Mzero RK_domain RK_formally_real HLA db2_ok db2_independent _ _ o _ o' c (exR_wf _) Ho Hc) as (ts' & W & Et' & EW & _ & _ & _ & Ecat).
  { rewrite Hlen. exists 2. reflexivity. }
  { rewrite Hlen. lia. }
  assert (ts' = ts). { rewrite Et in Et'. clear - Et'. revert ts' Et'. induction ts as [|t ts IH]; intros [|t' ts'] H; try discriminate; [reflexivity|]. cbn [map] in H. injection H as -> H. f_equal. apply IH, H. }
  subst ts'. exists o, o', c, ts, W. repeat split; auto. rewrite Et in Hlen. rewrite map_length in Hlen. exact Hlen.
Qed.
(** C42: a history mixing lengths, an axis error and repeated inputs *)
Example ex_C42 : exists o, new_mwavedec db2 (Some 2%Z) (AxInt 1) "qr" (Some "zero"%string) = Ok o /\
  let xs := [exR [2; 8]; exR [3; 5]; exR [4]; exR [2; 8]; exR [1; 2]] in
  mw_run RLA o xs = map (fun x => snd (mw_call RLA o x)) xs.
Proof.
  eexists. split; [reflexivity|]. apply (C42_wavedec RLA RK_domain RK_formally_real db2 4 "qr" (RLA_ok "qr" eq_refl) db2_ok db2_independent f32 2 1 (Some "zero"%string)); [reflexivity|].
  repeat constructor; apply exR_wf.
Qed.

(** refutations of the unrestricted claim, over the integers with a two-tap filter (no row needs orthogonalising, so
    the linear algebra used is irrelevant) *)
Definition noLA : linalg ZK := mkLA (K := ZK) (fun t => t) (fun _ => 0%Z) (fun _ _ => 0%Z).
Definition counts (l : list (result (pycoeffs ZK))) : list (result nat) := map (fun r => match r with Ok c => Ok (List.length (pc_items c)) | Raise e => Raise e end) l.
Definition exT' (s : list nat) (g : tag) : tensor ZK := mkT (K := ZK) g s (dat (exT s)).
(** level=None: the first call fixes the number of levels; a longer signal gets fewer levels than from a fresh object *)
Theorem C42_level_none_refuted : exists o, new_mwavedec exW2 None (AxInt (-1)) "qr" (Some "zero"%string) = Ok o /\
  counts (mw_run noLA o [exT [4]; exT [16]]) = [Ok 3; Ok 3] /\
  counts (map (fun x => snd (mw_call noLA o x)) [exT [4]; exT [16]]) = [Ok 3; Ok 5].
Proof. eexists. split; [reflexivity|]. split; vm_compute; reflexivity. Qed.
(** level=None and a signal that is too short: accepted once, then rejected *)
Theorem C42_short_signal_refuted : exists o, new_mwavedec exW4 None (AxInt (-1)) "qr" (Some "zero"%string) = Ok o /\
  counts (mw_run noLA o [exT [4]; exT [4]; exT [32]]) = [Ok 1; Raise ValueError; Raise ValueError] /\
  counts (map (fun x => snd (mw_call noLA o x)) [exT [4]; exT [4]]) = [Ok 1; Ok 1].
Proof. eexists. split; [reflexivity|]. split; vm_compute; reflexivity. Qed.
(** a second call with the same length and another dtype or device uses the matrices of the first *)
Theorem C42_dtype_refuted : exists o, new_mwavedec exW2 (Some 1%Z) (AxInt (-1)) "qr" (Some "zero"%string) = Ok o /\
  counts (mw_run noLA o [exT' [4] (float32, cpu); exT' [4] (float64, cpu)]) = [Ok 2; Raise RuntimeError] /\
  counts (map (fun x => snd (mw_call noLA o x)) [exT' [4] (float32, cpu); exT' [4] (float64, cpu)]) = [Ok 2; Ok 2].
Proof. eexists. split; [reflexivity|]. split; vm_compute; reflexivity. Qed.
(** the same for MatrixWaverec *)
Theorem C42_waverec_dtype_refuted : exists r, new_mwaverec exW2 (AxInt (-1)) "qr" = Ok r /\
  let ok (l : list (result (tensor ZK))) := map (fun r => match r with Ok _ => Ok tt | Raise e => Raise e end) l in
  let a := [PT (exT' [4] (float32, cpu)); PT (exT' [4] (float32, cpu))] in let b := [PT (exT' [4] (float64, cpu)); PT (exT' [4] (float64, cpu))] in
  ok (mr_run noLA r [a; b]) = [Ok tt; Raise RuntimeError] /\ ok (map (fun cs => snd (mr_call noLA r cs)) [a; b]) = [Ok tt; Ok tt].
Proof. eexists. split; [reflexivity|]. split; vm_compute; reflexivity. Qed.
