# Formal model of PyTorch-Wavelet-Toolbox (ptwt) in Coq 8.16.1

Everything is in `rocq/theories` (logical name `Verif`).  Only the Coq standard library is
imported; none of the other installed libraries is used.  No functors, module types or
axioms are declared; there is no `Admitted`.

## 1. Modelling decisions

* **Numbers.** Values live in an arbitrary commutative ring `K : CRing` (record of
  operations + `ring_theory`).  A theorem quantified over `K` holds for the integers, the
  rationals, the reals, the complex numbers.  IEEE rounding, overflow and NaN are NOT modelled: every numeric
  statement is about exact arithmetic.  Extra structure is a hypothesis of the theorem that
  needs it and is instantiated in the examples: `cancel2 K` (2x = 2y implies x = y),
  `formally_real K` (a sum of squares is 0 only if all terms are), `linalg K` (QR, square root, division used by the
  matrix code; laws in `MatOrth`/`GramSchmidt`, instance over the reals in `RealLA.v`), `cplx K` (roots of unity,
  conjugation, square root used by cwt; laws `cplx_ok`, instance in `ExCwt.v`).
* **Tensors.** `tensor K` = dtype/device tag + shape (`list nat`) + row-major data list.
  torch primitives (`reshape`, `permute`, `cat`, `stack`, `split`, slicing, `F.pad`,
  `convNd`, `conv_transposeNd`, `sparse_coo_tensor`, `sparse.mm`, ...) are modelled from their
  documentation, including the shape checks that make them raise.
* **Exceptions** are values: `result A = Ok a | Raise e`, with the Python exception class.
* **Non-termination** of a loop or recursion appears as running out of fuel (`RecursionError`); that the fuel
  suffices is part of the theorems.
* **Objects** (packets, matrix transforms) are records; a call returns the object it leaves behind (also when it
  raises).  Histories are lists of operations; theorems about objects quantify over them.  Containers of the caller
  that the code writes to are returned explicitly.
* **Python ints** are `Z` where they can be negative, `nat` for sizes.
* **pywt** (filter banks, `dwt_max_level`, `swt_max_level`) is external: a wavelet is an
  arbitrary quadruple of filters; level functions are modelled from pywt's documentation.  `int(np.log2(...))` is computed
  exactly.

## 2. Trusted base

* Coq 8.16.1's kernel (and its `vm_compute`, used for examples on literals).
* `Print Assumptions` for every theorem of the manifest is recorded in `ASSUMPTIONS.md` (generated by
  `tools/assumptions.py`).  All of them are *closed under the global context* except those that mention the
  standard library's real numbers (examples over the reals / complex numbers, `ex_C46`, `ex_C49`,
  `C39_independence_not_automatic`, ...), which list
  `ClassicalDedekindReals.sig_forall_dec`, `ClassicalDedekindReals.sig_not_dec`,
  `FunctionalExtensionality.functional_extensionality_dep`.  Loading `Coq.Reals` and `Coq.ssr` also brings into scope
  (without being used by the theorems) `Classical_Prop.classic`, the sealed constants of
  `Rdefinitions.RbaseSymbolsImpl` / `RinvImpl`, and the `ssrunder` module constants.  The files that load the reals are
  `RealLA`, `ExReal`, `ExMat1`, `ExMatN`, `ExSurj`, `ExPkM`, `ExLocalM`, `PropsLearn`, `ExCwt`, `ExCwtLocal`, `CwtLearn`, `PropsCwtL`, `ExLin`, `ExMore`, `ExAdjoint`, `PropsBest`, `ExBest`.
* The correspondence between the Gallina definitions and the Python source (each definition cites file and lines),
  the model of the torch/numpy/pywt primitives, and the specifications `Spec*.v`.

## 3. What is modelled, file by file

| source (src/ptwt) | model | not modelled |
|---|---|---|
| `_util.py` | `Util.v`, `Accept.v` (dtype check, axes, pre/postprocessing, tree map, flatten, padding), `PropsUtil.v` (deprecated alias) | text of messages, `_as_wavelet` string lookup, `_is_boundary_mode_supported` |
| `conv_transform.py` | `Conv1.v` | |
| `conv_transform_2.py`, `conv_transform_3.py` | `Conv2.v`, `Conv3.v` | |
| `separable_conv_transform.py` | `Sep.v` | |
| `stationary_transform.py` | `Swt.v` | |
| `packets.py` | `Packets.v` (lazy tree, access, initialize, reconstruct, assignment, orders), backends wavedec/waverec (padding modes), wavedec2, fswavedec2; `PacketsM.v` (mode="boundary": dictionaries of transform objects) | |
| `sparse_math.py` | `Sparse.v`, `SparseDense.v` (`_dense_kron`, `fully_sparse=False`) | - |
| `matmul_transform.py` | `Mat1.v` | warnings |
| `matmul_transform_2.py`, `_3.py` | `MatN.v` (separable and non-separable) | warnings |
| `continuous_transform.py` | `Cwt.v`, `CwtLearn.v` (learnable wavelets, wavefun, cwt with a module and its device) | wavelet functions of pywt's own wavelets (arbitrary values on any grid), frequencies of pywt |
| `wavelets_learnable.py` | `Learn.v` (losses; `ProductFilter`, `SoftOrthogonalWavelet`) | torch.nn.Module plumbing |
| `constants.py`, `version.py` | strings where used | |

autograd, JIT, CUDA execution, performance and stderr output are not modelled.

## 4. Files

* Foundations: `Base` (ring, results), `Sums`, `Tensor`/`TensorFacts` (tensors, torch primitives), `Perm`, `Plumb`, `Lin`.
* Specifications, written without reference to the model's helpers: `Spec` (signal extension, DWT formula, PR bank,
  coefficient sizes), `Spec2`, `SpecSep`, `SpecSwt`, `SpecPk`, `SpecMat`, `SpecMatN`, `SpecPkM`, `SpecCwt`.
* Models: `Util`, `Conv1`, `Conv2`, `Conv3`, `Sep`, `Swt`, `Packets`, `PacketsM`, `Sparse`, `Mat1`, `MatN`, `Cwt`, `CwtLearn`, `Learn`, `SparseDense`.
* Proof development: `PadFacts`, `CoreFacts`, `Analysis*`, `PRKernel`, `Synthesis`, `Filters`, `Wave1*`, `Rec1*`, `WaveN`, `RecN`,
  `SepFacts`, `SepRec*`, `Swt*`, `PacketFacts`, `Orders`, `PacketConv`, `PkInv`, `SparseFacts`, `SparseConv*`, `SparseMM`, `LinAlg`,
  `GramSchmidt`, `MatOrth`, `Boundary`, `MatPre`, `Mat1Facts`, `Mat1Call`, `Mat1Op`, `MatN*`, `LearnFacts`, `Polyphase`, `CwtFacts`, `EnergyN`, `Surj`, `Local`, `LocalM`, `LocalBW`.
* Property theorems: `SparseDense`, `PropsSurj`, `PropsLin`, `Props1`, `Props2`, `Tags`, `PropsTagMat`, `PropsSep`, `PropsSwt`, `PropsPk`, `PropsSparse`, `PropsOrth`, `PropsMat1`, `Mat1Op`,
  `PropsMatN`, `PropsMatN2`, `PropsMatNon`, `MatNOp`, `PropsPkM`, `PropsPkM2`, `PropsLearn`, `PropsUtil`, `PropsCwt`, `PropsLevels`, `PropsPkDec`, `PropsNd`, `PropsRej`, `PropsAxes`, `PropsConst`, `PropsLocal`, `PropsLocalM`, `PropsBatch`, `PropsBatch2`, `SwtExact`, `PropsNest`, `PropsEnergyZ`, `PropsPkE`, `PropsDict`, `PropsSwtE`, `PropsPkRead`, `PropsAxisWise`, `PropsAxisRec`, `PropsMoments`, `PropsLocalRec`, `PropsCwtLocal`, `PropsAdjoint`, `PropsFlip`, `PropsRoll`, `PropsBest`, `PropsIter`, `PropsIterPk`, `PropsSwtIter`, `PropsTap`, `PropsPkFlag` (through `Unified` and `UnifiedRec`: the five
  padded analysis and four N-d synthesis functions under one name; `RecNInv`: inversion of the latter).
* Concrete instances meeting the hypotheses: `Examples`, `ExIter`, `ExSwtIter` and the `ex_*` statements next to the theorems; over the reals `ExReal`,
  `ExMat1`, `ExMatN`, `ExPkM`, `ExLocalM`, `ExLin`, `ExMore`, `ExFlip`, over the rationals `ExAdjoint`, `ExBest` (also the reals), over the complex numbers `ExCwt`, `ExCwtLocal`.

## 5. Plan and state per property

* **C01–C08, C12** (1d padded FWT): `_util` pre/postprocessing, `_fwt_pad`, `wavedec`, `waverec` on nd tensors; reduced to
  fibres; the PR identity is a double sum collapsed by the two filter-bank identities.  Admissible sizes are characterised
  exactly (C08).
* **C09**: list recursion with fuel, invariant "window of the periodic symmetric extension whose ends are reflection
  points".
* **C10, C11**: case analysis of the error branches.
* **C13–C19**: generic N-d convolution with product kernels; sums factor over axes.
* **C20, C21**: dictionaries threaded explicitly.  Refuted for fswaverec2/3 and MatrixWaverec3, exact effect proved.
* **C22–C25**: dilated circular convolution; C25 refuted in general; `C25_exact` (SwtExact.v) characterises exactly the widths for which it holds.
* **C26–C32**: packets as a state machine over finite maps, induction over histories.  C29, C30, C32 refuted in corners.
* **C33–C37**: sparse matrices as coordinate lists, dense value = sum of entries.
* **C38, C39**: Gram-Schmidt by induction over processed rows; QR by the laws of a QR decomposition; the truncated rows are
  orthogonal to the complete ones because the sums coincide with untruncated ones.
* **C40–C42**: boundary-wavelet transform as `bwn_*` products of the level matrices; state machine for the cached
  matrices; C42 refuted for level=None and dtype changes.
* **C43–C45**: row/column products (separable); images as column-major vectors against one orthogonalised product matrix
  (non-separable).  C44 refuted: separable details come in the order [LH;HL;HH], non-separable ones in [HL;LH;HH].
* **C53**: the 2d sparse operators as products of level matrices, compared with the coefficients of the call.
* **C54–C56**: the packet state machine with a backend whose state is the dictionary of transform objects; the invariant says
  that every object in it answers like a fresh one (C42).  C56 refuted for a change of dtype.
* **C46, C47**: the convolution theorem is proved from orthogonality of the roots of unity; the cache of FFT'd signals is an
  invariant of the scale loop.
* **C48, C49**: losses as sums of squares; PR from the vanishing of the loss through the polyphase matrix.
* **C59, C61**: from `analyse_ok`/`analyse_inv` and `UnifiedRec.synth_ok` (one statement for the four synthesis functions); **C60**: inversion of waverec2/3 on an arbitrary container (`RecNInv`).
* **C62, C63**: the N-d DWT evaluated axis by axis (`AxesPerm.dval`), which commutes with permutations of (axis, filter) pairs.
* **C64**: Parseval for a matrix with orthonormal columns along several axes (`EnergyN`); **C65**: the rows are orthonormal too, so the analysis is onto, and uniqueness of the preimage comes from C40/C43/C45 (`Surj`, `PropsSurj`); **C66**: the coefficient formulas of C22, C40, C43, C45, C46, C54 are linear; reconstruction by combining C65 with perfect reconstruction (`PropsLin`).
* **C57, C58**: from the exact result of each analysis function (`Unified.analyse_ok`/`analyse_inv`).
* **C50, C51**: structural; **C52**: tags followed through every primitive.
* **C67**: the formulas over Coq's reals with nan as `None`; the grid over the rationals; cwt with the module is reduced to the
  model of `Cwt.v`, so C46/C47 apply.
* **C68**: from the coefficient formulas of C03/C14/C16/C18: inside the data the extension of every mode is the data itself (`ext_in`), so one level is a
  plain filter bank there; induction over the levels, with windows growing as (2^j - 1)(L - 1) + 1 and the sizes of level j at least n / 2^j (`Local.v`, `PropsLocal.v`).
* **C69**: the rows of the orthogonalised matrices that do not stick out are the shifted filters (C39), so a level is a plain filter bank with offset L/2
  instead of 1 on positions with complete rows (`LocalM.v` generic two-bank induction, `LocalBW.v`, `PropsLocalM.v`).
* **C70** (PropsBatch.v, PropsBatch2.v): fibres commute with every operation of the form `along_axes` (`fibre_along`), which is what the proved
  formulas of swt, iswt, the boundary transforms and the packet nodes are made of; the reconstruction objects follow from surjectivity (C65) and
  perfect reconstruction. The boundary packets are also shown linear there (C66).
* **C71** (PropsNest.v): the iterated level of the proved formulas splits as l1 + l2 iterations; for MatrixWavedec the first padding is
  idempotent except when the approximation is odd and shorter than the filters, the corner stated separately.
* **C72, C73** (PropsPkE.v, PropsEnergyZ.v): zero padding keeps the sum of squares, the level matrices are orthogonal, so every level keeps
  it; packet nodes are iterated level matrices (C54), so the all-'a' words are the levels of MatrixWavedec.
* **C74** (PropsDict.v): every pass over a container maps permuted dictionaries to permuted dictionaries; the recursive reconstructions are one
  generic pass over the keys that start with 'a' whose result, for keys of one length, is a permutation as well (induction on the recursion).
* **C75** (PropsSwtE.v): orthogonality in polyphase form makes one undecimated circular level double the energy (adjoint of the circular
  filter plus `circ_pr`); the levels are added up by induction.
* **C76** (PropsAxisWise.v, PropsAxisRec.v): the n-d specification factors over the axes (`dwt_axes_cons`, `idwtW_cons`); the theorem is stated
  with a family of tensors indexed by words that is defined by calls of wavedec / waverec only.
* **C77** (PropsPkRead.v, PropsPkM.v, PropsPkM2.v; `read_as` in SpecPk.v): induction on the path below the nearest stored ancestor, for any
  backend whose analysis does not depend on its caches; the boundary classes provide that by the cache invariant of C54.
* **C78** (PropsMoments.v): on a set of positions where the data is a polynomial along axis i, every approximation is again one (its
  coefficients are computed by `aff`, composition with an affine map, and sums over the taps), by induction on the level; the
  high-pass filter of the last step is orthogonal to polynomials of degree < p.  db2 over the reals has exactly two vanishing
  moments (ExMore.v).
* **C79** (PropsLocalRec.v): one synthesis step propagates agreement from the coefficients whose level-1 window contains a position;
  windows compose; induction on the list of levels (coarsest first).  `waverec_spec` is shown to be `recN_spec` with one axis.
* **C80** (PropsCwtLocal.v): the linear convolution of C46 as a sum over the wavelet samples of the zero-extended signal.
* **C81, C82** (PropsAdjoint.v, ExAdjoint.v): under zero padding the one-level analysis sum, reindexed by the sample instead of
  the tap, is the transposed synthesis sum; induction over the levels (the intermediate approximation is cropped to the size of
  the next detail level, which is the size of the approximation it pairs with). C81 follows from C82 and perfect reconstruction.
  C82 is stated for the model's exact arithmetic; that autograd computes this gradient is outside the model.
* **C83, C84** (PropsFlip.v, PropsRoll.v, ExFlip.v): the extension index of each mode commutes with i -> n-1-i; the tap sum is
  reversed and the output position k becomes len-1-k exactly when the length is even (ex_C83_needed: it fails on odd ones);
  induction over the levels, lifted to fibres and containers through `analyse_inv`/`analyse_ok`. C84: for periodic padding the
  extension index is a residue mod n, so both sides are the same sum of residues; swt enters through C23.
* **C85** (PropsBest.v, ExBest.v): expand both squared distances; C81 gives the energy of T z, C82 the mixed term; over the reals a
  square is non-negative.
* **C86** (PropsIter.v, PropsIterPk.v, ExIter.v): one zero-padded step composed with a correlation is a correlation with the
  next iterated filter; outside the stored range the iterated filter vanishes (its support is bounded by the level lengths), so
  truncation at every level loses nothing. Induction over the levels, respectively over the letters of the path.
* **C87** (PropsSwtIter.v, ExSwtIter.v): a dilated circular step after a correlation with the iterated filter is a correlation with
  the next one (sums reindexed, residues mod n combined); (b) from the synthesis formula of C24; (c) compares (a) with C86.

Floating-point accuracy, gradients, speed and GPU behaviour cannot be expressed in this model.

## 6. Findings (behaviour of the code that contradicts the natural property)

Those marked (proved) are theorems with suffix `_refuted` or stated inside the property theorem.

1. wavedec3 with zero levels returns the approximation with a spurious channel dimension (proved, C17).
2. fswaverec2/3 and MatrixWaverec3 insert an `aa..a` entry in the caller's dictionaries; a second MatrixWaverec3 call on the
   same coefficients raises ValueError (proved, C20/C21).
3. `_circular_pad` is wrong when a partial wrap is followed by another round; on an empty axis it does not terminate (proved, C25).
4. MatrixWavedec*(level=None) keeps the level of the first input; objects keep matrices of the first dtype/device and fail on
   another one (proved, C42).
5. Horizontal and vertical details are swapped in MatrixWavedec2(separable=True) and WaveletPacket2D(separable=True) (proved, C44).
6. WaveletPacket2D.get_freq_order(0) = [] (proved, C32).
7. Reading an unstored packet sibling overwrites an assigned node (proved, C30); reconstruct() re-expands a stored inner node
   whose sibling is missing from the old root (proved, C29).
8. reconstruct() with maxlevel None always raises ValueError.
9. MatrixWavedec2(separable=False) without any level raises UnboundLocalError, with an empty batch RuntimeError in a reshape
   (proved, C43_nonseparable_accepts).
10. sparse_replace_row works for square matrices only (proved); `_orth_by_qr`'s selection matrix size is inferred from the largest
    index (proved); construct_conv_matrix 'valid' with n < L raises; sparse_kron of matrices without stored entries returns
    default-dtype zeros.
11. Axes naming one dimension twice (once negatively) pass the duplicate check and raise RuntimeError (proved by example).
12. `_pad_symmetric_1d` on an empty axis recurses forever (proved).
13. cwt: a scale that leaves a single sample raises ValueError (proved); biorthogonal wavelets raise ValueError on unpacking (proved).
14. waverec accepts details whose batch dimensions differ as long as the folded product agrees (proved).
15. wavedec with an unknown mode is not rejected when no level is computed (proved).
16. A 4-tuple of details is silently cut to three by the tree map (proved, C50).
17. fswavedec with level=None on an empty axis raises OverflowError (proved by example).
18. 1d get_level("freq") with a negative level returns ["a","d"].
19. construct_conv2d_matrix in the same-type modes always raises for images at most half as wide as the filter (proved).
20. MatrixWaverec3 on a bare approximation raises ValueError (proved, C45).
21. For the degenerate orthogonal filter (1/√2,0,0,1/√2) the truncated rows are dependent and the boundary matrix is not orthogonal (proved).
22. MatrixWavedec with reflect odd padding rejects a length-1 axis (C40_accepts); an exception during matrix construction leaves
    partial matrices in the object.
23. MatrixWavedec2 (separable) with batch size 0 and at least one level raises (proved).
24. rec_lo_orthogonality_loss tests dec_lo (C49).
25. A 1d coefficient tuple becomes a list (a 2d list a tuple) after a tree map.
26. A boundary-mode packet object cannot be reused with another dtype (proved, C56); a boundary-mode node whose axis is shorter than
    the filter raises ValueError (1d), AssertionError (2d separable) or UnboundLocalError (2d) on reading (proved by example).
27. waverec2 silently ignores a fourth detail tensor for a single image, but raises for a batch of rank 3 (proved, C60).
28. fswaverec2/3 silently crop an approximation that is larger than its details, where waverec2/3 raise (proved, C60).
29. cwt with a learnable wavelet moves the module to gpu 0 whenever the data is on any gpu, so data on gpu 1 raises
    RuntimeError; data on the cpu with the module on a gpu raises too (proved, C67_other_device).  A zero bandwidth
    parameter, or a Shannon wavelet on a grid that contains zero (bounds that are not symmetric), gives nan (C67_nan).
30. MatrixWavedec stops when a level is shorter than the filters, but a fresh call on that same approximation pads it first and
    may then compute a level (an approximation of L - 1 samples), so level l1 + l2 is not l1 levels followed by l2 levels
    there (proved, C71_matrix_1d_corner, ex_C71_corner).  MatrixWavedec2/3 have no such corner.

## 7. Wrong programs

`seeded/LOG.jsonl` records the edits of the model that were tried in scratch copies, the theorems that failed and those that
were tightened.  `tools/mklog.py` formats the output of the harness.
