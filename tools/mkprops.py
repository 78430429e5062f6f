import json
P=[]
def p(title, statement, quantifier, why, *anchors):
    P.append(dict(id="C%02d"%(len(P)+1), title=title, statement=statement, quantifier=quantifier, why_tests_cant=why, anchors=list(anchors)))
U="src/ptwt/_util.py"; C1="src/ptwt/conv_transform.py"; C2="src/ptwt/conv_transform_2.py"; C3="src/ptwt/conv_transform_3.py"
SEP="src/ptwt/separable_conv_transform.py"; ST="src/ptwt/stationary_transform.py"; SM="src/ptwt/sparse_math.py"
M1="src/ptwt/matmul_transform.py"; M2="src/ptwt/matmul_transform_2.py"; M3="src/ptwt/matmul_transform_3.py"
PK="src/ptwt/packets.py"; CW="src/ptwt/continuous_transform.py"; WL="src/ptwt/wavelets_learnable.py"; K="src/ptwt/constants.py"
p("1d perfect reconstruction (wavedec/waverec)",
  "Whenever wavedec(x, w, mode, level, axis) returns, waverec of the result with the same wavelet and axis returns a tensor that agrees with x at every position of x (exact arithmetic), for every even-length filter bank satisfying the perfect-reconstruction and alias-cancellation conditions.",
  "every tensor (rank, shape, values), every axis, every padding mode, every level, every even-length PR filter bank",
  "tests sample a handful of lengths, wavelets and levels; the claim is over all signals, lengths and levels, including the interaction of padding with odd intermediate lengths",
  C1+"::wavedec", C1+"::waverec", U+"::_get_pad", U+"::_adjust_padding_at_reconstruction")
p("Reconstruction length and trailing sample",
  "The signal returned by waverec(wavedec(x)) has the length of x along the transformed axis when that length is even or no level was computed, and exactly one extra trailing sample when it is odd; the extra sample is the first right-hand extension sample of the chosen mode. All other axes keep their sizes.",
  "every tensor, axis, mode, level and PR filter bank", "odd/even behaviour must hold at every level of every recursion, for every length",
  C1+"::waverec", U+"::_get_pad", U+"::_postprocess_tensor")
p("wavedec computes the discrete wavelet transform (pywt convention)",
  "Every entry of every coefficient tensor equals sum_j h[j] * E(2k+1-j), where E is the bi-infinite extension (constant, zero, reflect, periodic or symmetric) of the previous approximation along the axis and h is the decomposition low/high-pass filter.",
  "every signal, mode, level, even filter length, position k", "agreement with pywt is only sampled by tests; the formula has to hold at all boundary positions for all lengths",
  C1+"::wavedec", C1+"::_fwt_pad", U+"::_get_filter_tensors", K+"::BoundaryMode")
p("Number and sizes of 1d coefficients",
  "wavedec with level l returns l+1 tensors ordered [cA_l, cD_l, ..., cD_1]; along the axis cD_j has length n_j with n_0 = n, n_{j} = floor((n_{j-1}+L-1)/2), cA_l has length n_l, and every other axis keeps its size.",
  "every shape, axis, level, even filter length and mode", "sizes for all lengths/levels cannot be enumerated",
  C1+"::wavedec", U+"::_get_pad")
p("Linearity of wavedec and waverec",
  "wavedec(a*x + b*y) is entrywise a*wavedec(x) + b*wavedec(y), and likewise for waverec; the padding never introduces constants.",
  "all pairs of equally shaped tensors, all scalars, modes, levels", "quantifies over all signals and scalars",
  C1+"::wavedec", C1+"::waverec", C1+"::_fwt_pad")
p("Batch and axis independence",
  "Transforming a tensor along an axis is the same as transforming every one-dimensional fibre along that axis on its own: no value leaks between batch entries, and the axis position and the number of leading dimensions do not influence the values.",
  "every tensor of rank >= 1, every legal (positive or negative) axis, every fibre", "needs all ranks, shapes and axis choices; tests check a few",
  U+"::_preprocess_coeffs", U+"::_postprocess_coeffs", U+"::_fold_axes", U+"::_unfold_axes", U+"::_swap_axes", U+"::_undo_swap_axes")
p("Default decomposition level is safe",
  "With level=None wavedec uses floor(log2(n/(L-1))) levels (0 if n < L-1) and, with this level, no padding call is ever rejected by torch for any of the five modes.",
  "every length n >= 1, every even filter length, every mode", "a failing (n, L, level) combination deep in the recursion cannot be excluded by sampling",
  C1+"::wavedec", U+"::_get_pad")
p("Exactly which explicit levels are rejected",
  "For an explicit level, zero, constant and symmetric padding never fail on a non-empty axis, while reflect (periodic) fails with a RuntimeError exactly when at some level the required padding is not smaller (larger) than the current length; no partial result is returned.",
  "every length, level, even filter length, mode", "iff over all lengths and levels",
  C1+"::_fwt_pad", U+"::_get_pad")
p("Symmetric padding is the half-sample symmetric extension",
  "Padding with mode symmetric by any amounts (also far more than the signal length) yields the window of the 2n-periodic half-sample symmetric extension of the signal, and always terminates for a non-empty axis.",
  "every non-empty signal and every pair of pad widths, every number of padded axes", "the recursion depth is unbounded in the pad width",
  U+"::_pad_symmetric_1d", U+"::_pad_symmetric")
p("Invalid 1d/nd inputs are rejected",
  "Unsupported dtypes, too few dimensions, a wrong number of axes, repeated axes and unknown padding modes raise ValueError; axes that are out of range or name one dimension twice (once negative) raise an error; no result is produced in these cases.",
  "every tensor and every argument combination outside the documented domain", "all invalid inputs",
  U+"::_preprocess_coeffs", U+"::_ensure_axes", U+"::_check_axes_argument", U+"::_translate_boundary_strings")
p("waverec rejects inconsistent coefficients",
  "If a detail tensor's length differs from the reconstructed approximation by anything but the one admissible padding sample, or coefficients differ in dtype or device, waverec raises instead of returning a wrong signal.",
  "every coefficient list", "all malformed coefficient lists",
  C1+"::waverec", U+"::_adjust_padding_at_reconstruction", U+"::_check_same_device_dtype")
p("Pre- and postprocessing are inverse",
  "Moving the transformed axes last, folding the batch dimensions and adding a batch dimension is undone exactly by postprocessing, also when the transformed sizes changed in between: only the sizes of the transformed axes differ and every entry is at its original batch position.",
  "every tensor, every number of transformed axes, every legal axes argument", "all ranks, shapes and axis permutations",
  U+"::_preprocess_tensor", U+"::_postprocess_tensor", U+"::_get_transpose_order")
p("2d perfect reconstruction (wavedec2/waverec2)",
  "Whenever wavedec2(x, ...) returns, waverec2 of the result agrees with x at every position of x; each transformed axis has at most one extra trailing sample, present iff its length is odd and a level was computed.",
  "every tensor of rank >= 2, axes pair, mode, level, PR filter bank", "all shapes incl. mixed parity at every level",
  C2+"::wavedec2", C2+"::waverec2")
p("wavedec2 computes the separable 2d DWT in pywt orientation",
  "The approximation/horizontal/vertical/diagonal tensors hold sum_{j,j'} f[j] g[j'] E(2k+1-j, 2k'+1-j') with (f,g) = (lo,lo), (hi,lo), (lo,hi), (hi,hi) on (first, second) transformed axis and E the extension of the previous approximation along both axes.",
  "every tensor, axes, mode, level, position", "orientation and boundary values must be right for every shape",
  C2+"::wavedec2", U+"::_construct_2d_filt", U+"::_outer", K+"::WaveletDetailTuple2d")
p("3d perfect reconstruction (wavedec3/waverec3)",
  "Whenever wavedec3(x, level >= 1, ...) returns, waverec3 of the result agrees with x at every position of x with at most one extra trailing sample per transformed axis.",
  "every tensor of rank >= 3, axes triple, mode, level, PR filter bank", "all shapes and parities",
  C3+"::wavedec3", C3+"::waverec3")
p("wavedec3 detail keys name the filters",
  "In every level dictionary of wavedec3, the tensor under key s in {a,d}^3 \\ {aaa} is the separable DWT of the previous approximation with the low-pass filter on axes marked a and the high-pass filter on axes marked d.",
  "every tensor, axes, mode, level, key, position", "all shapes",
  C3+"::wavedec3", U+"::_construct_3d_filt", K+"::WaveletDetailDict")
p("A zero-level transform returns the input",
  "wavedec, wavedec2, wavedec3 and fswavedec with zero levels (explicit, or the default level of a short input) return exactly the input tensor as approximation, with the input's shape.",
  "every tensor, axes", "all ranks; the shape bookkeeping differs by rank",
  C1+"::wavedec", C2+"::wavedec2", C3+"::wavedec3", SEP+"::_separable_conv_wavedecn")
p("Separable and non-separable padded transforms agree",
  "fswavedec2/fswavedec3 produce, level by level, the same approximation as wavedec2/wavedec3; key da equals the horizontal, ad the vertical and dd the diagonal tensor of wavedec2, and the seven 3d keys coincide with those of wavedec3.",
  "every tensor, axes, mode, level", "equality of two algorithms over all inputs",
  SEP+"::_separable_conv_dwtn_", SEP+"::_separable_conv_wavedecn", C2+"::wavedec2", C3+"::wavedec3")
p("Separable perfect reconstruction (fswavedec/fswaverec)",
  "fswaverec2/3 applied to the output of fswavedec2/3 agrees with the input at every input position.",
  "every tensor, axes, mode, level, PR filter bank", "all shapes and parities per axis and level",
  SEP+"::_separable_conv_idwtn", SEP+"::_separable_conv_waverecn")
p("Synthesis does not modify the caller's coefficients",
  "waverec, waverec2, waverec3, fswaverec2/3, MatrixWaverec3 leave the coefficient containers passed by the caller unchanged.",
  "every coefficient structure", "whether the containers are copied depends on rank and axes; all combinations must be covered",
  SEP+"::_separable_conv_waverecn", M3+"::MatrixWaverec3", U+"::_coeff_tree_map", U+"::_preprocess_coeffs")
p("Synthesis can be repeated",
  "Calling the same synthesis function or object a second time with the same coefficient structure gives the same result as the first call.",
  "every valid coefficient structure, any number of repetitions", "history property",
  M3+"::MatrixWaverec3", SEP+"::_separable_conv_waverecn")
p("swt keeps the length at every level",
  "swt(x, w, level) returns level+1 tensors, all with the shape of x, for every even filter length.",
  "every tensor, axis, level, even filter length", "dilation and padding arithmetic for all lengths and levels",
  ST+"::swt", ST+"::_circular_pad")
p("swt is the undecimated circular transform",
  "Level-j coefficients of swt are sum_i h[i] * A_{j-1}((k + 2^{j-1}*(L/2 - i)) mod n), i.e. dilated circular convolutions of the previous approximation, hence swt commutes with circular shifts.",
  "every signal whose length is a multiple of 2^(level-1) , every even filter length, every shift", "pads may wrap around the signal many times",
  ST+"::swt", ST+"::_circular_pad")
p("iswt inverts swt",
  "iswt(swt(x)) = x for every filter bank satisfying the PR condition, whenever the length is divisible by 2^(level-1).",
  "every signal, level, even-length PR bank", "all lengths, levels and filter lengths, multiple wrap-around",
  ST+"::swt", ST+"::iswt")
p("Multiple circular wrap-around is consistent",
  "Circular padding by more than one signal length continues the periodic extension on both sides.",
  "every signal and every pair of pad widths", "loop over unbounded many wraps; interaction of unequal left and right widths",
  ST+"::_circular_pad")
p("Wavelet packet nodes do not depend on the access history",
  "After transform, reading node p (1d: over {a,d}, 2d: over {a,h,v,d}) yields the node obtained by applying the single-level analysis along p from the root, whatever nodes were read before and in whatever order.",
  "every sequence of read accesses, every key, every data tensor", "histories of arbitrary length and order",
  PK+"::WaveletPacket.__getitem__", PK+"::WaveletPacket._expand_node", PK+"::WaveletPacket2D.__getitem__")
p("Wavelet packet access errors",
  "Before transform any read raises ValueError; a key that is not stored and longer than maxlevel raises KeyError; a key with a foreign character raises ValueError; none of these accesses changes the values of other nodes.",
  "every key and every reachable packet state", "all keys and histories",
  PK+"::WaveletPacket.__getitem__", PK+"::WaveletPacket2D.__getitem__")
p("Wavelet packet reconstruction inverts the decomposition",
  "If all leaves at maxlevel were initialised and not modified, reconstruct() replaces the root by a tensor agreeing with the transformed data at every position (up to one extra trailing sample per odd axis), for 1d and 2d packets.",
  "every data tensor, maxlevel, wavelet, mode", "recursion over the whole tree of unbounded depth",
  PK+"::WaveletPacket.reconstruct", PK+"::WaveletPacket2D.reconstruct")
p("Reconstruction needs every leaf and uses only leaves",
  "reconstruct() raises KeyError when a leaf at maxlevel is missing, and otherwise the new root is a function of the leaf values and node shapes only: changing inner nodes does not change it.",
  "every reachable packet state, every maxlevel", "all states",
  PK+"::WaveletPacket.reconstruct", PK+"::WaveletPacket2D.reconstruct")
p("Assigned packet nodes persist",
  "A value assigned to a packet node is returned by later reads of that node until the node is assigned again, reconstruct or transform is called.",
  "every history of assignments and reads", "history property",
  PK+"::WaveletPacket._expand_node", PK+"::WaveletPacket.__getitem__")
p("1d packet node orders",
  "get_level(l, natural) lists every path of length l over {a,d} exactly once in lexicographic order; get_level(l, freq) is a permutation of it in which the path at position i is the binary-reflected Gray code of i, so neighbouring nodes differ in one filter.",
  "every level l", "unbounded l",
  PK+"::WaveletPacket.get_level", PK+"::WaveletPacket._get_graycode_order")
p("2d packet node orders",
  "get_natural_order(l) lists every path over {a,h,v,d} of length l once; get_freq_order(l) arranges exactly these paths in a 2^l x 2^l grid whose rows/columns follow the Gray code order of the vertical/horizontal filter words.",
  "every level l >= 0", "unbounded l",
  PK+"::WaveletPacket2D.get_freq_order", PK+"::WaveletPacket2D.get_natural_order")
p("sparse_kron is the Kronecker product",
  "For sparse matrices a, b (also uncoalesced, with duplicate or explicit zero entries, or empty) the dense value of sparse_kron(a,b) is the Kronecker product of the dense values. So is that of _dense_kron, the route through dense matrices.",
  "every pair of sparse matrices", "all sizes, sparsity patterns, duplicates",
  SM+"::sparse_kron")
p("Convolution matrices convolve",
  "construct_conv_matrix(f, n, mode) applied to a vector x of length n is the full/same/valid convolution of f and x, with the stated output length; construct_strided_conv_matrix picks every stride-th output (starting at 1 for sameshift).",
  "every filter, every n, every mode, every stride", "size inference from indices must be right for all n and filter lengths",
  SM+"::construct_conv_matrix", SM+"::construct_strided_conv_matrix")
p("2d convolution matrices convolve",
  "construct_conv2d_matrix(f, h, w, mode) applied to the column-major vector of an h x w image is the column-major vector of the 2d full/same/valid convolution; the strided variant selects every stride-th row and column.",
  "every filter, image size and mode for which the construction succeeds", "all sizes",
  SM+"::construct_conv2d_matrix", SM+"::construct_strided_conv2d_matrix", SM+"::sparse_diag")
p("Row replacement and identity extension",
  "sparse_replace_row replaces exactly the addressed row of a square sparse matrix and keeps all others; cat_sparse_identity_matrix is the block diagonal of its input and an identity and rejects non-square input or a smaller target.",
  "every sparse matrix, row index and row", "all sizes and sparsity patterns",
  SM+"::sparse_replace_row", SM+"::cat_sparse_identity_matrix")
p("Batched matrix products",
  "batch_mm multiplies every matrix of the batch and _batch_dim_mm multiplies along the given dimension only; neither mixes batch entries.",
  "every matrix and tensor of matching sizes, every dim", "all ranks and shapes",
  SM+"::batch_mm", SM+"::_batch_dim_mm")
p("Gram-Schmidt orthogonalisation",
  "orthogonalize(m, L, gramschmidt) keeps every row with L stored entries, and if these rows are orthonormal and orthogonal to the remaining rows and no intermediate row vanishes, all rows of the result are orthonormal and span the same space.",
  "every square sparse real matrix", "induction over the number of boundary rows",
  SM+"::_orth_by_gram_schmidt", M1+"::orthogonalize", M1+"::_get_to_orthogonalize")
p("Boundary analysis matrices are orthogonal",
  "For an orthogonal filter bank and even length n >= L, the raw analysis matrix has orthonormal complete rows, orthogonal to all truncated rows; construct_boundary_a therefore returns an orthogonal matrix (if the truncated rows are independent) and construct_boundary_s its transpose.",
  "every orthogonal even-length filter bank, every even n >= L", "all lengths and filters",
  M1+"::_construct_a", M1+"::_construct_s", M1+"::construct_boundary_a", M1+"::construct_boundary_s")
p("1d boundary-wavelet perfect reconstruction and energy",
  "For orthogonal filter banks MatrixWaverec(MatrixWavedec(x)) agrees with x at every position (one extra trailing sample iff odd length) and, if no padding occurs, the coefficients have the same energy as x.",
  "every tensor, axis, level, orthogonal filter bank, odd-padding mode", "all lengths and levels",
  M1+"::MatrixWavedec", M1+"::MatrixWaverec")
p("sparse_fwt_operator is the whole transform",
  "After a padding-free call, sparse_fwt_operator applied to x equals the concatenation [cA_l, cD_l, ..., cD_1]; sparse_ifwt_operator applied to that concatenation reproduces the reconstruction.",
  "every padding-free length and level", "all lengths/levels",
  M1+"::MatrixWavedec.sparse_fwt_operator", M1+"::MatrixWaverec.sparse_ifwt_operator", SM+"::cat_sparse_identity_matrix")
p("Matrix objects can be reused",
  "A MatrixWavedec/MatrixWaverec object gives, on each call of any call history, the result a freshly constructed object would give for that input.",
  "every sequence of calls with arbitrary lengths and dtypes", "history property of the matrix cache",
  M1+"::MatrixWavedec.__call__", M1+"::MatrixWaverec.__call__")
p("2d boundary-wavelet perfect reconstruction",
  "MatrixWaverec2(MatrixWavedec2(x)) agrees with x at every position for orthogonal filter banks (separable or not), at most one extra trailing sample per axis.",
  "every tensor, axes, level, odd-padding mode", "all shapes and parities",
  M2+"::MatrixWavedec2", M2+"::MatrixWaverec2", M2+"::_matrix_pad_2")
p("2d detail orientation is the same in every 2d transform",
  "The horizontal/vertical detail tensors of MatrixWavedec2 (separable or not), WaveletPacket2D (separable or not) and wavedec2 denote the same filter pair per axis.",
  "every tensor", "needs an argument over all signals that the tensors coincide or a witness that they do not",
  M2+"::MatrixWavedec2", C2+"::wavedec2", PK+"::WaveletPacket2D._transform_fsdict_to_tuple_func")
p("3d boundary-wavelet perfect reconstruction",
  "MatrixWaverec3(MatrixWavedec3(x)) agrees with x at every position for orthogonal filter banks, at most one extra trailing sample per axis.",
  "every tensor, axes, level", "all shapes and parities",
  M3+"::MatrixWavedec3", M3+"::MatrixWaverec3")
p("cwt output shape and freedom from wrap-around",
  "For every scale the cwt row has exactly the time length of the data or a ValueError is raised, and the FFT product equals the linear convolution of the data with the sampled integrated wavelet (no circular aliasing).",
  "every signal length, every sampled wavelet length, every scale list", "all lengths",
  CW+"::cwt", CW+"::_next_fast_len")
p("cwt rows are independent",
  "The row of the cwt for a scale does not depend on the other scales or their order (the reused FFT of the data is always of the right size), and batch entries are transformed independently.",
  "every list of scales", "history property of the reused FFT",
  CW+"::cwt")
p("Zero filter-bank loss guarantees invertibility",
  "perfect_reconstruction_loss and alias_cancellation_loss vanish iff the PR / alias-cancellation identities hold; hence if product_filter_loss() = 0 for an even-length learnable filter bank then waverec inverts wavedec for every signal.",
  "every real filter bank, every signal", "continuum of filters and signals",
  WL+"::WaveletFilter", WL+"::ProductFilter", C1+"::wavedec", C1+"::waverec")
p("Orthogonality losses",
  "filt_bank_orthogonality_loss vanishes iff the synthesis filters are the reversed analysis filters; rec_lo_orthogonality_loss vanishes iff the low-pass filter is orthonormal to its even shifts.",
  "every real filter bank", "continuum of filters",
  WL+"::SoftOrthogonalWavelet")
p("Coefficient tree map",
  "Mapping over coefficient structures keeps the container kind, the number of levels, and dictionary keys, applies the function to every tensor exactly once, and respects identity and composition.",
  "every coefficient structure and function", "all structures",
  U+"::_coeff_tree_map", U+"::_flatten_2d_coeff_lst")
p("Deprecated argument names",
  "Calling with a deprecated keyword is equivalent to calling with its new name; passing both raises TypeError; other keywords are untouched.",
  "every keyword assignment", "all keyword sets",
  U+"::_deprecated_alias")
p("dtype and device are preserved",
  "Every tensor returned by wavedec/waverec (and 2d, 3d, swt, matrix variants) has the dtype and device of the input.",
  "every input", "all inputs",
  U+"::_get_filter_tensors", C1+"::wavedec", C1+"::waverec")
p("2d sparse_fwt_operator is the whole transform",
  "After a padding-free call of a non-separable MatrixWavedec2 on a batch of images, sparse_fwt_operator applied to the images stored column by column equals the concatenation of the returned coefficient tensors stored column by column; sparse_ifwt_operator of MatrixWaverec2 maps that concatenation back to the images. Separable objects and padded transforms with several levels raise NotImplementedError, objects that were not called raise ValueError.",
  "every batch of images, every level, orthogonal filter bank", "all sizes and levels",
  M2+"::MatrixWavedec2.sparse_fwt_operator", M2+"::MatrixWaverec2.sparse_ifwt_operator", SM+"::cat_sparse_identity_matrix")
p("boundary-mode packet nodes",
  "With mode='boundary', after transform(x) every readable node of a WaveletPacket or WaveletPacket2D is obtained from x by one level of the boundary-wavelet transform per letter of its name (with the orthogonal boundary matrices of C39, odd sizes extended by a zero); the value does not depend on the order of reads nor on anything done with the object before on data of the same dtype and device, although the transform objects are cached. With the default maxlevel every node up to maxlevel is readable.",
  "every tensor, axis, orthogonal filter bank, node name, every history of operations on the object", "the cached transform objects make results depend on the history unless proved otherwise; all histories, sizes and depths",
  PK+"::WaveletPacket._get_wavedec", PK+"::WaveletPacket2D._get_wavedec", PK+"::WaveletPacket._expand_node", PK+"::WaveletPacket2D._expand_node")
p("boundary-mode packet reconstruction",
  "With mode='boundary', if all leaves at maxlevel were computed and not modified, reconstruct() succeeds and replaces the root by a tensor that agrees with the transformed data at every position (one extra trailing sample per odd axis); at the default depth transform, any reads, initialize(leaves), reconstruct never fails. A missing leaf raises KeyError.",
  "every tensor, axis, orthogonal filter bank, depth, history", "all sizes, depths and histories, with cached transform objects shared between nodes of equal size",
  PK+"::WaveletPacket.reconstruct", PK+"::WaveletPacket2D.reconstruct", PK+"::WaveletPacket._get_waverec", PK+"::WaveletPacket2D._get_waverec")
p("packet objects can be reused",
  "Calling transform() again on a packet object with mode='boundary' gives the same nodes as a fresh object, whatever was done with the object before.",
  "every history of operations, every new input", "all histories; the object keeps caches keyed by size",
  PK+"::WaveletPacket.transform", PK+"::WaveletPacket2D.transform", M1+"::MatrixWavedec", M2+"::MatrixWavedec2")
p("levels compose",
  "Analysing with l1 levels and then analysing the returned approximation with l2 levels gives exactly the coefficients of one call with l1+l2 levels (the details of the second call followed by those of the first); conversely every successful call with l1+l2 levels splits this way. Holds for wavedec, wavedec2, wavedec3, fswavedec2 and fswavedec3.",
  "every tensor, axes, mode, even filter bank and pair of level counts", "all sizes, level counts and modes; odd sizes and padding interact between levels",
  C1+"::wavedec", C2+"::wavedec2", C3+"::wavedec3", SEP+"::fswavedec2", SEP+"::fswavedec3")
p("packet nodes on the approximation branch are the ordinary coefficients",
  "After transform(x, maxlevel) and any reads, the node a...a (l letters) of a packet object equals the approximation returned by wavedec / wavedec2 / fswavedec2 with level l, and the nodes a..ad (a..ah, a..av, a..ad in 2d) equal its detail coefficients of the corresponding level.",
  "every tensor, filter bank, padding mode, axes, level and history of reads", "all sizes, depths and histories; relates two independently written APIs",
  PK+"::WaveletPacket", PK+"::WaveletPacket2D", C1+"::wavedec", C2+"::wavedec2", SEP+"::fswavedec2")
p("linearity in two and three dimensions",
  "For wavedec, wavedec2, wavedec3, fswavedec2, fswavedec3 the coefficients of a*x + b*y are a*(coefficients of x) + b*(coefficients of y), entry by entry, in the same container; for waverec2, waverec3, fswaverec2, fswaverec3 the reconstruction of a*c + b*c' is a*(reconstruction of c) + b*(reconstruction of c').",
  "every pair of tensors (or coefficient containers) of equal shapes, scalars, axes, mode, level, filter bank", "all shapes, values and modes",
  C2+"::wavedec2", C3+"::wavedec3", SEP+"::fswavedec2", SEP+"::fswavedec3", C2+"::waverec2", C3+"::waverec3", SEP+"::fswaverec2", SEP+"::fswaverec3")
p("waverec2 and waverec3 reject inconsistent coefficients",
  "waverec2 and waverec3 return a value only if the first coefficient is a tensor of supported dtype, every level is a tuple with at least three tensors (a dictionary with exactly the seven keys), all used tensors have the dtype and device of the approximation, as many signals, equal transformed sizes within a level, and the level sizes follow each other as in a wavelet decomposition for this filter length; otherwise they raise. Consistent containers are accepted (also by fswaverec2 and fswaverec3).",
  "every coefficient container whatsoever, filter length, axes", "all malformed inputs; tests try a handful",
  C2+"::waverec2", C3+"::waverec3", U+"::_preprocess_coeffs", U+"::_check_same_device_dtype")
p("signals of a batch do not interact in two and three dimensions",
  "For the analysis functions wavedec(2,3), fswavedec2/3 and the synthesis functions waverec2/3, fswaverec2/3: taking one image (volume) of the batch, i.e. fixing the indices of all untouched axes, and calling the function on it with default axes gives exactly the corresponding slice of the result of the batched call with arbitrary axes.",
  "every tensor rank, choice of axes, batch index, mode, level, filter bank", "all ranks, axes and batch positions",
  U+"::_preprocess_tensor", U+"::_preprocess_coeffs", U+"::_postprocess_coeffs", U+"::_postprocess_tensor", C2+"::wavedec2", C3+"::wavedec3", SEP+"::fswavedec2")
p("axis order and axis sign only rename the details",
  "Naming the transformed axes in another order, or with negative instead of positive numbers, gives the same approximation and the same detail tensors: in wavedec2 exchanging the two axes exchanges horizontal and vertical details, in wavedec3, fswavedec2 and fswavedec3 the letters of every key are permuted like the axes. The default level is the same.",
  "every tensor, mode, level, filter bank and every permutation of the axes", "all ranks, axes, permutations and sizes",
  C2+"::wavedec2", C3+"::wavedec3", SEP+"::fswavedec2", SEP+"::fswavedec3", U+"::_swap_axes")
p("no detail where the data does not change",
  "If the high-pass filter sums to zero and x does not change along one of the transformed axes, then at every level all detail tensors that are high-pass along this axis are exactly zero, for every boundary mode except zero padding (with zero padding the border produces details).",
  "every tensor constant along an axis, mode, level, filter bank with zero-sum high-pass", "all sizes, levels and modes; depends on the padding of every level being an extension of the data",
  C1+"::wavedec", C1+"::_fwt_pad", C2+"::wavedec2", C3+"::wavedec3", SEP+"::fswavedec2", SEP+"::fswavedec3")
p("boundary-wavelet transforms preserve energy in two and three dimensions",
  "For an orthogonal filter bank, if the transformed sizes are divisible by 2^J (J the number of levels computed), the sum of squares of all coefficients returned by MatrixWavedec2 (both separable settings) and MatrixWavedec3 equals the sum of squares of the input, over any batch and any choice of axes.",
  "every tensor, axes, level, orthogonalisation method and orthogonal filter bank with independent boundary rows", "all sizes, levels and values",
  M2+"::MatrixWavedec2", M3+"::MatrixWavedec3", M1+"::construct_boundary_a")
p("boundary-wavelet transforms are onto",
  "For every container of coefficients with the sizes of a J-level transform (arbitrary values), MatrixWaverec / MatrixWaverec2 / MatrixWaverec3 returns a tensor x of the corresponding size, and MatrixWavedec / 2 / 3 with level J applied to x returns exactly the given container: decomposing a reconstruction changes nothing.",
  "every container of matching sizes, J, axes, method, orthogonal filter bank", "all values, sizes and levels; tests only check the other direction of the round trip",
  M1+"::MatrixWavedec", M1+"::MatrixWaverec", M2+"::MatrixWavedec2", M2+"::MatrixWaverec2", M3+"::MatrixWavedec3", M3+"::MatrixWaverec3")
p("linearity of the stationary, packet, boundary and continuous transforms",
  "swt, the packet nodes (1d and 2d, any padding mode), MatrixWavedec, MatrixWavedec2 (both settings), MatrixWavedec3 and cwt map a*x + b*y to a*(result of x) + b*(result of y) in the same container; iswt, MatrixWaverec, MatrixWaverec2, MatrixWaverec3 map a*c + b*c' to a*(result of c) + b*(result of c'). For cwt with a real wavelet the scalars must be real.",
  "every pair of inputs of equal shapes and dtype, scalars, level, axes, mode, filter bank", "all shapes, values, levels and modes",
  ST+"::swt", ST+"::iswt", PK+"::WaveletPacket", PK+"::WaveletPacket2D", M1+"::MatrixWavedec", M2+"::MatrixWavedec2", M3+"::MatrixWavedec3", M1+"::MatrixWaverec", CW+"::cwt")
p("Learnable continuous wavelets are the wavelets of their effective frequencies",
  "For every value of its two trainable parameters a learnable Shannon or complex Morlet wavelet has nonnegative bandwidth and centre frequency, and a freshly built one has the frequencies of its name. wavefun(precision), precision >= 1, returns 2**precision equidistant points from the lower to the upper bound and the closed-form wavelet of the effective frequencies on them; with symmetric bounds zero is never on that grid, so no value is 0/0, and mirrored points carry conjugate values. cwt with such a module equals cwt with a fixed wavelet of the same values, leaves the parameters unchanged and leaves the module on the data's device; a zero bandwidth parameter yields only nan, data on another gpu raises RuntimeError.",
  "all parameter values, frequencies, rational bounds, precisions, data tensors and scales", "the parameters move through a continuum during training; tests look at fresh wavelets and a few precisions.",
  CW+"::_DifferentiableContinuousWavelet", CW+"::_ShannonWavelet", CW+"::_ComplexMorletWavelet", CW+"::cwt")
p("coefficients are local and move with the signal",
  "For wavedec, wavedec2, wavedec3, fswavedec2 and fswavedec3: the level-j coefficient at position k whose window 2^j k - (2^j - 1)(L - 2) ... 2^j (k + 1) - 1 (along every transformed axis) lies inside the data depends only on the samples of that window: not on the boundary mode, the size of the data, the requested level, the other batch entries or the samples elsewhere. If another input contains the same window moved by 2^j s samples, its coefficient at position k + s of level j is the same.",
  "every pair of inputs, modes, sizes, levels, positions, shifts, filter banks of even length", "all positions, levels, sizes and contents outside the window",
  C1+"::wavedec", C1+"::_fwt_pad", C2+"::wavedec2", C3+"::wavedec3", SEP+"::fswavedec2", SEP+"::fswavedec3")
p("away from the borders the boundary-wavelet transforms are the plain filter bank",
  "For an orthogonal filter bank of length L and any of the two orthogonalisation methods: a level-j coefficient of MatrixWavedec / MatrixWavedec2 (both settings) / MatrixWavedec3 whose window 2^j k - (2^j - 1)(L/2 - 1) ... 2^j k + (2^j - 1) L/2 lies inside the data depends only on that window - not on size, padding mode, orthogonalisation method, separable setting or the rest of the data - moves with the signal, and equals the coefficient at k + L/2 - 1 of level j that wavedec / wavedec2 / wavedec3 computes from the data delayed by L/2 - 1 samples, in any padding mode.",
  "every pair of inputs, sizes, levels, axes, positions, shifts, methods, modes, orthogonal filter banks with independent boundary rows", "all sizes, positions and contents outside the window; the matrices are built by orthogonalisation, so tests see only a few sizes",
  M1+"::MatrixWavedec", M1+"::construct_boundary_a", M2+"::MatrixWavedec2", M2+"::construct_boundary_a2", M3+"::MatrixWavedec3", C1+"::wavedec", C2+"::wavedec2", C3+"::wavedec3")
p("the other transforms treat every fibre on its own",
  "swt, iswt, MatrixWavedec, MatrixWavedec2 (both settings), MatrixWavedec3, their reconstruction objects, every node of WaveletPacket and WaveletPacket2D (padded modes and mode='boundary') and cwt act on each batch entry independently: taking one fibre (image, volume) of the input along the transformed axes and transforming it alone with the default axes gives that fibre of the transform of the whole batch. No value of one batch entry influences another, and neither the number of batch entries nor the position of the transformed axes matters.",
  "every batched input, axes, level, mode, method, path, batch position, filter bank of even length (orthogonal for the boundary transforms)", "batches, axis layouts and sizes are unbounded; a leak between entries would be invisible on the sampled ones",
  ST+"::swt", ST+"::iswt", M1+"::MatrixWavedec", M1+"::MatrixWaverec", M2+"::MatrixWavedec2", M2+"::MatrixWaverec2", M3+"::MatrixWavedec3", M3+"::MatrixWaverec3", PK+"::WaveletPacket", PK+"::WaveletPacket2D", CW+"::cwt")
p("levels nest: analysing the approximation continues the analysis",
  "MatrixWavedec2 (both settings) and MatrixWavedec3 with level l1 + l2 return what level l2 returns for the approximation of level l1, followed by the details of level l1. MatrixWavedec does the same unless the level l1 approximation is shorter than the filters, where the long analysis stops and returns the level l1 result (if it has exactly L - 1 samples a second call nevertheless pads it and computes another level). swt with level l1 <= l2 returns the last l1 detail tensors of level l2.",
  "every input, pair of levels, axes, padding mode, method, filter bank (orthogonal for the boundary transforms)", "all sizes, levels and values; tests compare against pywt at single levels",
  ST+"::swt", M1+"::MatrixWavedec", M2+"::MatrixWavedec2", M3+"::MatrixWavedec3")
p("boundary packets contain the boundary-wavelet transform",
  "After transform(x) on a WaveletPacket / WaveletPacket2D object with mode='boundary', whatever the object was used for before and whatever has been read since, node 'a...a' (J letters) is the approximation and nodes 'a...ad' (1d) or 'a...ah', 'a...av', 'a...ad' (2d) are the details that MatrixWavedec / MatrixWavedec2 with zero odd padding returns for x at level J.",
  "every input, level J up to the maximum level, axis, method, separable setting, history, orthogonal filter bank", "histories, sizes and levels are unbounded",
  PK+"::WaveletPacket", PK+"::WaveletPacket2D", M1+"::MatrixWavedec", M2+"::MatrixWavedec2")
p("zero padding preserves the energy for every size",
  "For an orthogonal filter bank and zero odd padding the sum of squares of all coefficients of MatrixWavedec, MatrixWavedec2 (both settings) and MatrixWavedec3 equals the sum of squares of the input for all sizes, odd ones included; and for a boundary packet object the energies of all nodes of one level add up to the energy of the input.",
  "every input, axes, level, method, history of the packet object, orthogonal filter bank", "all sizes, levels and values",
  M1+"::MatrixWavedec", M2+"::MatrixWavedec2", M3+"::MatrixWavedec3", PK+"::WaveletPacket", PK+"::WaveletPacket2D")
p("the key order of coefficient dictionaries does not matter",
  "waverec3, fswaverec2, fswaverec3 and MatrixWaverec3 give the same result (and MatrixWaverec3 leaves the object in the same state) for two coefficient containers that differ only in the order in which the keys of their detail dictionaries were inserted, for example after loading or merging dictionaries.",
  "every container with dictionaries of distinct keys (all of one length for fswaverec2/3, three letters for MatrixWaverec3), every permutation of every dictionary, level count, axes, filter bank; also for sizes that are cropped", "there are 7! orders per level, and the code iterates over the dictionary while building new ones",
  C3+"::waverec3", SEP+"::fswaverec2", SEP+"::fswaverec3", SEP+"::_separable_conv_idwtn", M3+"::MatrixWaverec3", M3+"::_cat_coeff_recursive")
p("the stationary transform weighs the levels by powers of two",
  "For an orthogonal filter bank (and sizes divisible by 2^(levels - 1), or the Haar length 2) the coefficients of swt at level J satisfy 2^J * energy(x) = energy(cA_J) + energy(cD_J) + 2 * energy(cD_(J-1)) + ... + 2^(J-1) * energy(cD_1), where energy is the sum of squares over the whole tensor including the batch.",
  "every input, axis, level, orthogonal filter bank", "all sizes, levels and values",
  ST+"::swt")
p("the n-d functions are the 1-d functions applied axis by axis",
  "One level of wavedec2 / wavedec3 / fswavedec2 / fswavedec3 succeeds exactly if wavedec(level=1) succeeds along the last axis, then along the axis before it on both results, and so on, and it returns exactly the resulting tensors: the letter of a key at position i tells which output ('a' or 'd') was taken along axis i, and wavedec2 returns (aa, (da, ad, dd)). Conversely one level of waverec2 / waverec3 / fswaverec2 / fswaverec3 is waverec along the first axis of every pair, then along the second, and so on.",
  "every input, axes, boundary mode, filter bank of even length; every family of coefficients of one shape", "batches, sizes, axes and values are unbounded; the n-d functions build n-d filters, so nothing in the code makes them agree with the 1-d functions",
  C1+"::wavedec", C1+"::waverec", C2+"::wavedec2", C2+"::waverec2", C3+"::wavedec3", C3+"::waverec3", SEP+"::fswavedec2", SEP+"::fswavedec3", SEP+"::fswaverec2", SEP+"::fswaverec3")
p("a packet read computes from the nearest stored ancestor and touches only that path",
  "For a packet object in any state (nodes assigned or deleted by hand, reads, reconstructions): reading node q returns the value computed from its longest stored prefix r by one analysis step per remaining letter (q itself if stored). It stores exactly the children of the nodes from r down to the parent of q, as far as the analysis succeeds, and changes no other node: a stored node p+c is replaced only if p is a proper prefix of q and no longer prefix of q is stored; the root is never replaced. A path with a foreign letter raises ValueError and changes nothing, and so does a path without any stored prefix.",
  "every object state (for mode='boundary': every history of data of one dtype and device), every key, mode, level, filter bank", "the states of the object dictionary are unbounded; the recursion assigns nodes as a side effect",
  PK+"::WaveletPacket.__getitem__", PK+"::WaveletPacket._expand_node", PK+"::WaveletPacket2D.__getitem__", PK+"::WaveletPacket2D._expand_node")
p("vanishing moments remove polynomial data",
  "If the analysis high-pass filter has p vanishing moments, then in wavedec, wavedec2, wavedec3, fswavedec2 and fswavedec3 every coefficient of a detail tensor that contains this filter on axis i is exactly zero whenever its window of samples (C68) lies inside the signal and the data in that window is, along axis i, a polynomial of degree less than p in the position (a different polynomial on each line, if there are other axes); the mode, the level and the values outside the window do not matter.",
  "every filter bank of even length, number of moments p, level, size, mode, axes, data and polynomial", "polynomials, sizes and levels are unbounded; the approximations that enter deeper levels are polynomials again only because of an algebraic identity",
  C1+"::wavedec", C2+"::wavedec2", C3+"::wavedec3", SEP+"::fswavedec2", SEP+"::fswavedec3")
p("a reconstructed sample depends only on the coefficients around it",
  "waverec, waverec2, waverec3, fswaverec2 and fswaverec3: if two coefficient structures of the same shapes agree at every level on the coefficients whose analysis window (C68: position k of level j covers samples 2^j k - (2^j-1)(L-2) .. 2^j (k+1) - 1 on each axis) contains an output position, then both reconstructions have the same value there.",
  "every filter bank, number of levels, shape, axes, pair of coefficient structures and output position", "the dependency cone runs through all levels and grows with them",
  C1+"::waverec", C2+"::waverec2", C3+"::waverec3", SEP+"::fswaverec2", SEP+"::fswaverec3")
p("cwt coefficients are local and move with the signal",
  "For a scale at which the wavelet has M samples, the cwt value at time t is determined by the M+1 data samples at t - (M-1-floor((M-2)/2)) .. t + floor((M-2)/2) + 1, where samples before the beginning and after the end of the data count as zero. Two calls give the same value at times t and t' if their data agree on these windows, whatever the lengths, the other signals of the batch, the other scales and the rest of the data (in particular moving a signal moves its coefficients, and there is no wrap-around).",
  "every wavelet, grid, list of scales, data length, batch, time and pair of data tensors", "the implementation multiplies discrete Fourier transforms, in which every output depends on every input",
  K+"::cwt")
p("orthogonal wavelets with zero padding keep inner products and energy",
  "If the filters form an orthogonal bank (orthonormal to their even shifts, reconstruction filters reversed) and the mode is zero, the sum over all coefficient tensors of <c(x), c(y)> equals <x, y> for every two signals of the same shape, so the energy of the coefficients is the energy of the signal. This holds although zero padding makes the transform expansive.",
  "wavedec, wavedec2, wavedec3, fswavedec2, fswavedec3; every orthogonal bank of even length, tensor size, batch shape, axes, level, pair of signals", "all sizes, levels and values; floating-point tests compare a few sizes with a tolerance",
  C1+"::wavedec", C2+"::wavedec2", C3+"::wavedec3", SEP+"::fswavedec2", SEP+"::fswavedec3")
p("synthesis with reversed filters is the adjoint of zero-padded analysis",
  "Let cx be the coefficients of x under analysis filters (lo, hi) with mode zero, and c any container laid out like cx (same containers, keys, shapes, dtype, device, arbitrary numbers). The matching synthesis function called with reconstruction filters reverse(lo), reverse(hi) accepts c; its result y covers x and <cx, c> = <x, y>. So the gradient of a function of the coefficients with respect to x is that synthesis of the gradient with respect to the coefficients, cut to the shape of x, whether or not the filters are a wavelet.",
  "the five padded transforms; any filters of even length; every size, batch shape, axes, level, signal and container of that layout", "an identity of bilinear forms over all signals and all coefficient containers",
  C1+"::wavedec", C1+"::waverec", C2+"::waverec2", C3+"::waverec3", SEP+"::fswaverec2", SEP+"::fswaverec3")
p("time-reversed filters on the time-reversed signal give the time-reversed coefficients",
  "On axes whose length is even at every analysed level: if the signal is reversed along the transformed axes (torch.flip) and both analysis filters are reversed, every coefficient tensor of the accepted call is reversed along these axes, in the same container. True for every padding mode; on an axis of odd length it fails.",
  "wavedec, wavedec2, wavedec3, fswavedec2, fswavedec3; any filters of even length; every padding mode, size (even at each level), batch shape, axes, level and signal", "a symmetry over all signals, lengths and levels",
  C1+"::wavedec", C1+"::_fwt_pad", C2+"::wavedec2", C3+"::wavedec3", SEP+"::fswavedec2", SEP+"::fswavedec3")
p("one level with periodic padding is circular and is contained in the stationary transform",
  "With mode periodic and one level: (a) on even lengths n, rolling the signal (torch.roll) by 2s along the transformed axes gives coefficients that at position k are the old ones at (k - s) mod n/2 (so the redundant coefficients repeat with period n/2); (b) for every length, odd ones included, coefficient k of wavedec (approximation and detail) is the level-1 coefficient of swt at position (2k + 1 - L/2) mod n.",
  "(a) wavedec, wavedec2, wavedec3, fswavedec2, fswavedec3, every shift; (b) wavedec against swt; any filters of even length L, every size, batch shape, axes and signal", "an equality of two functions, and an equivariance, over all signals, sizes and shifts",
  C1+"::wavedec", C1+"::_fwt_pad", C2+"::wavedec2", C3+"::wavedec3", SEP+"::fswavedec2", SEP+"::fswavedec3", ST+"::swt")
p("orthogonal synthesis with zero padding is least squares",
  "Let the filters form an orthogonal bank, the mode be zero, and c be any container laid out like the coefficients of x (for example thresholded or quantised coefficients). The matching synthesis function accepts c; its result, cut to the size of x, is the unique signal of this size whose coefficients are closest to c (sum of squared differences over all coefficients), and its energy is at most the energy of c. Precisely: |T z - c|^2 = |z - y|^2 + |c|^2 - |y|^2 for every signal z.",
  "wavedec/waverec, wavedec2/waverec2, wavedec3/waverec3, fswavedec2/3 and fswaverec2/3; every orthogonal bank of even length, size, batch shape, axes, level, container of that layout and competing signal", "optimality among infinitely many signals for every container of coefficients",
  C1+"::wavedec", C1+"::waverec", C2+"::waverec2", C3+"::waverec3", SEP+"::fswaverec2", SEP+"::fswaverec3")
p("with zero padding every coefficient is a correlation with one iterated filter",
  "Let the mode be zero and x any signal. Multi-level analysis has a closed form without padding or levels: level-j detail coefficient k (per transformed axis) is the sum over the samples o of x[o] g[2^j (k+1) - 1 - o], where g is the j-fold iterated filter (low-pass upsampled and convolved j-1 times, then the low-pass or high-pass last, according to the orientation on that axis); the approximation uses the low-pass throughout. There are no boundary terms. The same holds for every node of the 1d and 2d wavelet packets, with the filters of its path in the order of its letters.",
  "wavedec, wavedec2, wavedec3, fswavedec2, fswavedec3, WaveletPacket and WaveletPacket2D (every path, after every history of reads); every pair of filters of even length, size (odd ones included), batch shape, axes, level and signal", "an equality with an independent closed form for every level, path, size and signal",
  C1+"::wavedec", C2+"::wavedec2", C3+"::wavedec3", SEP+"::fswavedec2", SEP+"::fswavedec3", PK+"::WaveletPacket", PK+"::WaveletPacket2D")
p("every stationary coefficient is a circular correlation with one iterated filter",
  "(a) Coefficient k of level j of swt is the sum over the taps m of g[m] x[(k + (2^j - 1) L/2 - m) mod n], where g is the filter iterated j times (the same iterated filter as for the zero-padded transform), for any even filter length L and any level whose dilation divides n. (b) iswt commutes with circular shifts: shifting all coefficient tensors by s shifts its result by s, whether or not the tensors came from swt. (c) Where no window crosses a border, the level-j detail coefficient k of zero-padded wavedec is the stationary one at position 2^j (k + 1) - 1 - (2^j - 1) L/2 mod n.",
  "swt, iswt and wavedec; every pair of filters of even length, size, batch shape, axis, level, shift and signal or coefficient tensors", "an equality with a closed form, and an equivariance, over all signals, sizes, levels and shifts",
  ST+"::swt", ST+"::iswt", ST+"::_circular_pad", C1+"::wavedec")
with open("/verif/properties.jsonl","w") as f:
    for q in P: f.write(json.dumps(q)+"\n")
print(len(P))
