{"id": "C01", "title": "1d perfect reconstruction (wavedec/waverec)", "statement": "Whenever wavedec(x, w, mode, level, axis) returns, waverec of the result with the same wavelet and axis returns a tensor that agrees with x at every position of x (exact arithmetic), for every even-length filter bank satisfying the perfect-reconstruction and alias-cancellation conditions.", "quantifier": "every tensor (rank, shape, values), every axis, every padding mode, every level, every even-length PR filter bank", "why_tests_cant": "tests sample a handful of lengths, wavelets and levels; the claim is over all signals, lengths and levels, including the interaction of padding with odd intermediate lengths", "anchors": ["src/ptwt/conv_transform.py::wavedec", "src/ptwt/conv_transform.py::waverec", "src/ptwt/_util.py::_get_pad", "src/ptwt/_util.py::_adjust_padding_at_reconstruction"]}
{"id": "C02", "title": "Reconstruction length and trailing sample", "statement": "The signal returned by waverec(wavedec(x)) has the length of x along the transformed axis when that length is even or no level was computed, and exactly one extra trailing sample when it is odd; the extra sample is the first right-hand extension sample of the chosen mode. All other axes keep their sizes.", "quantifier": "every tensor, axis, mode, level and PR filter bank", "why_tests_cant": "odd/even behaviour must hold at every level of every recursion, for every length", "anchors": ["src/ptwt/conv_transform.py::waverec", "src/ptwt/_util.py::_get_pad", "src/ptwt/_util.py::_postprocess_tensor"]}
{"id": "C03", "title": "wavedec computes the discrete wavelet transform (pywt convention)", "statement": "Every entry of every coefficient tensor equals sum_j h[j] * E(2k+1-j), where E is the bi-infinite extension (constant, zero, reflect, periodic or symmetric) of the previous approximation along the axis and h is the decomposition low/high-pass filter.", "quantifier": "every signal, mode, level, even filter length, position k", "why_tests_cant": "agreement with pywt is only sampled by tests; the formula has to hold at all boundary positions for all lengths", "anchors": ["src/ptwt/conv_transform.py::wavedec", "src/ptwt/conv_transform.py::_fwt_pad", "src/ptwt/_util.py::_get_filter_tensors", "src/ptwt/constants.py::BoundaryMode"]}
{"id": "C04", "title": "Number and sizes of 1d coefficients", "statement": "wavedec with level l returns l+1 tensors ordered [cA_l, cD_l, ..., cD_1]; along the axis cD_j has length n_j with n_0 = n, n_{j} = floor((n_{j-1}+L-1)/2), cA_l has length n_l, and every other axis keeps its size.", "quantifier": "every shape, axis, level, even filter length and mode", "why_tests_cant": "sizes for all lengths/levels cannot be enumerated", "anchors": ["src/ptwt/conv_transform.py::wavedec", "src/ptwt/_util.py::_get_pad"]}
{"id": "C05", "title": "Linearity of wavedec and waverec", "statement": "wavedec(a*x + b*y) is entrywise a*wavedec(x) + b*wavedec(y), and likewise for waverec; the padding never introduces constants.", "quantifier": "all pairs of equally shaped tensors, all scalars, modes, levels", "why_tests_cant": "quantifies over all signals and scalars", "anchors": ["src/ptwt/conv_transform.py::wavedec", "src/ptwt/conv_transform.py::waverec", "src/ptwt/conv_transform.py::_fwt_pad"]}
{"id": "C06", "title": "Batch and axis independence", "statement": "Transforming a tensor along an axis is the same as transforming every one-dimensional fibre along that axis on its own: no value leaks between batch entries, and the axis position and the number of leading dimensions do not influence the values.", "quantifier": "every tensor of rank >= 1, every legal (positive or negative) axis, every fibre", "why_tests_cant": "needs all ranks, shapes and axis choices; tests check a few", "anchors": ["src/ptwt/_util.py::_preprocess_coeffs", "src/ptwt/_util.py::_postprocess_coeffs", "src/ptwt/_util.py::_fold_axes", "src/ptwt/_util.py::_unfold_axes", "src/ptwt/_util.py::_swap_axes", "src/ptwt/_util.py::_undo_swap_axes"]}
{"id": "C07", "title": "Default decomposition level is safe", "statement": "With level=None wavedec uses floor(log2(n/(L-1))) levels (0 if n < L-1) and, with this level, no padding call is ever rejected by torch for any of the five modes.", "quantifier": "every length n >= 1, every even filter length, every mode", "why_tests_cant": "a failing (n, L, level) combination deep in the recursion cannot be excluded by sampling", "anchors": ["src/ptwt/conv_transform.py::wavedec", "src/ptwt/_util.py::_get_pad"]}
{"id": "C08", "title": "Exactly which explicit levels are rejected", "statement": "For an explicit level, zero, constant and symmetric padding never fail on a non-empty axis, while reflect (periodic) fails with a RuntimeError exactly when at some level the required padding is not smaller (larger) than the current length; no partial result is returned.", "quantifier": "every length, level, even filter length, mode", "why_tests_cant": "iff over all lengths and levels", "anchors": ["src/ptwt/conv_transform.py::_fwt_pad", "src/ptwt/_util.py::_get_pad"]}
{"id": "C09", "title": "Symmetric padding is the half-sample symmetric extension", "statement": "Padding with mode symmetric by any amounts (also far more than the signal length) yields the window of the 2n-periodic half-sample symmetric extension of the signal, and always terminates for a non-empty axis.", "quantifier": "every non-empty signal and every pair of pad widths, every number of padded axes", "why_tests_cant": "the recursion depth is unbounded in the pad width", "anchors": ["src/ptwt/_util.py::_pad_symmetric_1d", "src/ptwt/_util.py::_pad_symmetric"]}
{"id": "C10", "title": "Invalid 1d/nd inputs are rejected", "statement": "Unsupported dtypes, too few dimensions, a wrong number of axes, repeated axes and unknown padding modes raise ValueError; axes that are out of range or name one dimension twice (once negative) raise an error; no result is produced in these cases.", "quantifier": "every tensor and every argument combination outside the documented domain", "why_tests_cant": "all invalid inputs", "anchors": ["src/ptwt/_util.py::_preprocess_coeffs", "src/ptwt/_util.py::_ensure_axes", "src/ptwt/_util.py::_check_axes_argument", "src/ptwt/_util.py::_translate_boundary_strings"]}
{"id": "C11", "title": "waverec rejects inconsistent coefficients", "statement": "If a detail tensor's length differs from the reconstructed approximation by anything but the one admissible padding sample, or coefficients differ in dtype or device, waverec raises instead of returning a wrong signal.", "quantifier": "every coefficient list", "why_tests_cant": "all malformed coefficient lists", "anchors": ["src/ptwt/conv_transform.py::waverec", "src/ptwt/_util.py::_adjust_padding_at_reconstruction", "src/ptwt/_util.py::_check_same_device_dtype"]}
{"id": "C12", "title": "Pre- and postprocessing are inverse", "statement": "Moving the transformed axes last, folding the batch dimensions and adding a batch dimension is undone exactly by postprocessing, also when the transformed sizes changed in between: only the sizes of the transformed axes differ and every entry is at its original batch position.", "quantifier": "every tensor, every number of transformed axes, every legal axes argument", "why_tests_cant": "all ranks, shapes and axis permutations", "anchors": ["src/ptwt/_util.py::_preprocess_tensor", "src/ptwt/_util.py::_postprocess_tensor", "src/ptwt/_util.py::_get_transpose_order"]}
{"id": "C13", "title": "2d perfect reconstruction (wavedec2/waverec2)", "statement": "Whenever wavedec2(x, ...) returns, waverec2 of the result agrees with x at every position of x; each transformed axis has at most one extra trailing sample, present iff its length is odd and a level was computed.", "quantifier": "every tensor of rank >= 2, axes pair, mode, level, PR filter bank", "why_tests_cant": "all shapes incl. mixed parity at every level", "anchors": ["src/ptwt/conv_transform_2.py::wavedec2", "src/ptwt/conv_transform_2.py::waverec2"]}
{"id": "C14", "title": "wavedec2 computes the separable 2d DWT in pywt orientation", "statement": "The approximation/horizontal/vertical/diagonal tensors hold sum_{j,j'} f[j] g[j'] E(2k+1-j, 2k'+1-j') with (f,g) = (lo,lo), (hi,lo), (lo,hi), (hi,hi) on (first, second) transformed axis and E the extension of the previous approximation along both axes.", "quantifier": "every tensor, axes, mode, level, position", "why_tests_cant": "orientation and boundary values must be right for every shape", "anchors": ["src/ptwt/conv_transform_2.py::wavedec2", "src/ptwt/_util.py::_construct_2d_filt", "src/ptwt/_util.py::_outer", "src/ptwt/constants.py::WaveletDetailTuple2d"]}
{"id": "C15", "title": "3d perfect reconstruction (wavedec3/waverec3)", "statement": "Whenever wavedec3(x, level >= 1, ...) returns, waverec3 of the result agrees with x at every position of x with at most one extra trailing sample per transformed axis.", "quantifier": "every tensor of rank >= 3, axes triple, mode, level, PR filter bank", "why_tests_cant": "all shapes and parities", "anchors": ["src/ptwt/conv_transform_3.py::wavedec3", "src/ptwt/conv_transform_3.py::waverec3"]}
{"id": "C16", "title": "wavedec3 detail keys name the filters", "statement": "In every level dictionary of wavedec3, the tensor under key s in {a,d}^3 \\ {aaa} is the separable DWT of the previous approximation with the low-pass filter on axes marked a and the high-pass filter on axes marked d.", "quantifier": "every tensor, axes, mode, level, key, position", "why_tests_cant": "all shapes", "anchors": ["src/ptwt/conv_transform_3.py::wavedec3", "src/ptwt/_util.py::_construct_3d_filt", "src/ptwt/constants.py::WaveletDetailDict"]}
{"id": "C17", "title": "A zero-level transform returns the input", "statement": "wavedec, wavedec2, wavedec3 and fswavedec with zero levels (explicit, or the default level of a short input) return exactly the input tensor as approximation, with the input's shape.", "quantifier": "every tensor, axes", "why_tests_cant": "all ranks; the shape bookkeeping differs by rank", "anchors": ["src/ptwt/conv_transform.py::wavedec", "src/ptwt/conv_transform_2.py::wavedec2", "src/ptwt/conv_transform_3.py::wavedec3", "src/ptwt/separable_conv_transform.py::_separable_conv_wavedecn"]}
{"id": "C18", "title": "Separable and non-separable padded transforms agree", "statement": "fswavedec2/fswavedec3 produce, level by level, the same approximation as wavedec2/wavedec3; key da equals the horizontal, ad the vertical and dd the diagonal tensor of wavedec2, and the seven 3d keys coincide with those of wavedec3.", "quantifier": "every tensor, axes, mode, level", "why_tests_cant": "equality of two algorithms over all inputs", "anchors": ["src/ptwt/separable_conv_transform.py::_separable_conv_dwtn_", "src/ptwt/separable_conv_transform.py::_separable_conv_wavedecn", "src/ptwt/conv_transform_2.py::wavedec2", "src/ptwt/conv_transform_3.py::wavedec3"]}
{"id": "C19", "title": "Separable perfect reconstruction (fswavedec/fswaverec)", "statement": "fswaverec2/3 applied to the output of fswavedec2/3 agrees with the input at every input position.", "quantifier": "every tensor, axes, mode, level, PR filter bank", "why_tests_cant": "all shapes and parities per axis and level", "anchors": ["src/ptwt/separable_conv_transform.py::_separable_conv_idwtn", "src/ptwt/separable_conv_transform.py::_separable_conv_waverecn"]}
{"id": "C20", "title": "Synthesis does not modify the caller's coefficients", "statement": "waverec, waverec2, waverec3, fswaverec2/3, MatrixWaverec3 leave the coefficient containers passed by the caller unchanged.", "quantifier": "every coefficient structure", "why_tests_cant": "whether the containers are copied depends on rank and axes; all combinations must be covered", "anchors": ["src/ptwt/separable_conv_transform.py::_separable_conv_waverecn", "src/ptwt/matmul_transform_3.py::MatrixWaverec3", "src/ptwt/_util.py::_coeff_tree_map", "src/ptwt/_util.py::_preprocess_coeffs"]}
{"id": "C21", "title": "Synthesis can be repeated", "statement": "Calling the same synthesis function or object a second time with the same coefficient structure gives the same result as the first call.", "quantifier": "every valid coefficient structure, any number of repetitions", "why_tests_cant": "history property", "anchors": ["src/ptwt/matmul_transform_3.py::MatrixWaverec3", "src/ptwt/separable_conv_transform.py::_separable_conv_waverecn"]}
{"id": "C22", "title": "swt keeps the length at every level", "statement": "swt(x, w, level) returns level+1 tensors, all with the shape of x, for every even filter length.", "quantifier": "every tensor, axis, level, even filter length", "why_tests_cant": "dilation and padding arithmetic for all lengths and levels", "anchors": ["src/ptwt/stationary_transform.py::swt", "src/ptwt/stationary_transform.py::_circular_pad"]}
{"id": "C23", "title": "swt is the undecimated circular transform", "statement": "Level-j coefficients of swt are sum_i h[i] * A_{j-1}((k + 2^{j-1}*(L/2 - i)) mod n), i.e. dilated circular convolutions of the previous approximation, hence swt commutes with circular shifts.", "quantifier": "every signal whose length is a multiple of 2^(level-1) , every even filter length, every shift", "why_tests_cant": "pads may wrap around the signal many times", "anchors": ["src/ptwt/stationary_transform.py::swt", "src/ptwt/stationary_transform.py::_circular_pad"]}
{"id": "C24", "title": "iswt inverts swt", "statement": "iswt(swt(x)) = x for every filter bank satisfying the PR condition, whenever the length is divisible by 2^(level-1).", "quantifier": "every signal, level, even-length PR bank", "why_tests_cant": "all lengths, levels and filter lengths, multiple wrap-around", "anchors": ["src/ptwt/stationary_transform.py::swt", "src/ptwt/stationary_transform.py::iswt"]}
{"id": "C25", "title": "Multiple circular wrap-around is consistent", "statement": "Circular padding by more than one signal length continues the periodic extension on both sides.", "quantifier": "every signal and every pair of pad widths", "why_tests_cant": "loop over unbounded many wraps; interaction of unequal left and right widths", "anchors": ["src/ptwt/stationary_transform.py::_circular_pad"]}
{"id": "C26", "title": "Wavelet packet nodes do not depend on the access history", "statement": "After transform, reading node p (1d: over {a,d}, 2d: over {a,h,v,d}) yields the node obtained by applying the single-level analysis along p from the root, whatever nodes were read before and in whatever order.", "quantifier": "every sequence of read accesses, every key, every data tensor", "why_tests_cant": "histories of arbitrary length and order", "anchors": ["src/ptwt/packets.py::WaveletPacket.__getitem__", "src/ptwt/packets.py::WaveletPacket._expand_node", "src/ptwt/packets.py::WaveletPacket2D.__getitem__"]}
{"id": "C27", "title": "Wavelet packet access errors", "statement": "Before transform any read raises ValueError; a key that is not stored and longer than maxlevel raises KeyError; a key with a foreign character raises ValueError; none of these accesses changes the values of other nodes.", "quantifier": "every key and every reachable packet state", "why_tests_cant": "all keys and histories", "anchors": ["src/ptwt/packets.py::WaveletPacket.__getitem__", "src/ptwt/packets.py::WaveletPacket2D.__getitem__"]}
{"id": "C28", "title": "Wavelet packet reconstruction inverts the decomposition", "statement": "If all leaves at maxlevel were initialised and not modified, reconstruct() replaces the root by a tensor agreeing with the transformed data at every position (up to one extra trailing sample per odd axis), for 1d and 2d packets.", "quantifier": "every data tensor, maxlevel, wavelet, mode", "why_tests_cant": "recursion over the whole tree of unbounded depth", "anchors": ["src/ptwt/packets.py::WaveletPacket.reconstruct", "src/ptwt/packets.py::WaveletPacket2D.reconstruct"]}
{"id": "C29", "title": "Reconstruction needs every leaf and uses only leaves", "statement": "reconstruct() raises KeyError when a leaf at maxlevel is missing, and otherwise the new root is a function of the leaf values and node shapes only: changing inner nodes does not change it.", "quantifier": "every reachable packet state, every maxlevel", "why_tests_cant": "all states", "anchors": ["src/ptwt/packets.py::WaveletPacket.reconstruct", "src/ptwt/packets.py::WaveletPacket2D.reconstruct"]}
{"id": "C30", "title": "Assigned packet nodes persist", "statement": "A value assigned to a packet node is returned by later reads of that node until the node is assigned again, reconstruct or transform is called.", "quantifier": "every history of assignments and reads", "why_tests_cant": "history property", "anchors": ["src/ptwt/packets.py::WaveletPacket._expand_node", "src/ptwt/packets.py::WaveletPacket.__getitem__"]}
{"id": "C31", "title": "1d packet node orders", "statement": "get_level(l, natural) lists every path of length l over {a,d} exactly once in lexicographic order; get_level(l, freq) is a permutation of it in which the path at position i is the binary-reflected Gray code of i, so neighbouring nodes differ in one filter.", "quantifier": "every level l", "why_tests_cant": "unbounded l", "anchors": ["src/ptwt/packets.py::WaveletPacket.get_level", "src/ptwt/packets.py::WaveletPacket._get_graycode_order"]}
{"id": "C32", "title": "2d packet node orders", "statement": "get_natural_order(l) lists every path over {a,h,v,d} of length l once; get_freq_order(l) arranges exactly these paths in a 2^l x 2^l grid whose rows/columns follow the Gray code order of the vertical/horizontal filter words.", "quantifier": "every level l >= 0", "why_tests_cant": "unbounded l", "anchors": ["src/ptwt/packets.py::WaveletPacket2D.get_freq_order", "src/ptwt/packets.py::WaveletPacket2D.get_natural_order"]}
{"id": "C33", "title": "sparse_kron is the Kronecker product", "statement": "For sparse matrices a, b (also uncoalesced, with duplicate or explicit zero entries, or empty) the dense value of sparse_kron(a,b) is the Kronecker product of the dense values. So is that of _dense_kron, the route through dense matrices.", "quantifier": "every pair of sparse matrices", "why_tests_cant": "all sizes, sparsity patterns, duplicates", "anchors": ["src/ptwt/sparse_math.py::sparse_kron"]}
{"id": "C34", "title": "Convolution matrices convolve", "statement": "construct_conv_matrix(f, n, mode) applied to a vector x of length n is the full/same/valid convolution of f and x, with the stated output length; construct_strided_conv_matrix picks every stride-th output (starting at 1 for sameshift).", "quantifier": "every filter, every n, every mode, every stride", "why_tests_cant": "size inference from indices must be right for all n and filter lengths", "anchors": ["src/ptwt/sparse_math.py::construct_conv_matrix", "src/ptwt/sparse_math.py::construct_strided_conv_matrix"]}
{"id": "C35", "title": "2d convolution matrices convolve", "statement": "construct_conv2d_matrix(f, h, w, mode) applied to the column-major vector of an h x w image is the column-major vector of the 2d full/same/valid convolution; the strided variant selects every stride-th row and column.", "quantifier": "every filter, image size and mode for which the construction succeeds", "why_tests_cant": "all sizes", "anchors": ["src/ptwt/sparse_math.py::construct_conv2d_matrix", "src/ptwt/sparse_math.py::construct_strided_conv2d_matrix", "src/ptwt/sparse_math.py::sparse_diag"]}
{"id": "C36", "title": "Row replacement and identity extension", "statement": "sparse_replace_row replaces exactly the addressed row of a square sparse matrix and keeps all others; cat_sparse_identity_matrix is the block diagonal of its input and an identity and rejects non-square input or a smaller target.", "quantifier": "every sparse matrix, row index and row", "why_tests_cant": "all sizes and sparsity patterns", "anchors": ["src/ptwt/sparse_math.py::sparse_replace_row", "src/ptwt/sparse_math.py::cat_sparse_identity_matrix"]}
{"id": "C37", "title": "Batched matrix products", "statement": "batch_mm multiplies every matrix of the batch and _batch_dim_mm multiplies along the given dimension only; neither mixes batch entries.", "quantifier": "every matrix and tensor of matching sizes, every dim", "why_tests_cant": "all ranks and shapes", "anchors": ["src/ptwt/sparse_math.py::batch_mm", "src/ptwt/sparse_math.py::_batch_dim_mm"]}
{"id": "C38", "title": "Gram-Schmidt orthogonalisation", "statement": "orthogonalize(m, L, gramschmidt) keeps every row with L stored entries, and if these rows are orthonormal and orthogonal to the remaining rows and no intermediate row vanishes, all rows of the result are orthonormal and span the same space.", "quantifier": "every square sparse real matrix", "why_tests_cant": "induction over the number of boundary rows", "anchors": ["src/ptwt/sparse_math.py::_orth_by_gram_schmidt", "src/ptwt/matmul_transform.py::orthogonalize", "src/ptwt/matmul_transform.py::_get_to_orthogonalize"]}
{"id": "C39", "title": "Boundary analysis matrices are orthogonal", "statement": "For an orthogonal filter bank and even length n >= L, the raw analysis matrix has orthonormal complete rows, orthogonal to all truncated rows; construct_boundary_a therefore returns an orthogonal matrix (if the truncated rows are independent) and construct_boundary_s its transpose.", "quantifier": "every orthogonal even-length filter bank, every even n >= L", "why_tests_cant": "all lengths and filters", "anchors": ["src/ptwt/matmul_transform.py::_construct_a", "src/ptwt/matmul_transform.py::_construct_s", "src/ptwt/matmul_transform.py::construct_boundary_a", "src/ptwt/matmul_transform.py::construct_boundary_s"]}
{"id": "C40", "title": "1d boundary-wavelet perfect reconstruction and energy", "statement": "For orthogonal filter banks MatrixWaverec(MatrixWavedec(x)) agrees with x at every position (one extra trailing sample iff odd length) and, if no padding occurs, the coefficients have the same energy as x.", "quantifier": "every tensor, axis, level, orthogonal filter bank, odd-padding mode", "why_tests_cant": "all lengths and levels", "anchors": ["src/ptwt/matmul_transform.py::MatrixWavedec", "src/ptwt/matmul_transform.py::MatrixWaverec"]}
{"id": "C41", "title": "sparse_fwt_operator is the whole transform", "statement": "After a padding-free call, sparse_fwt_operator applied to x equals the concatenation [cA_l, cD_l, ..., cD_1]; sparse_ifwt_operator applied to that concatenation reproduces the reconstruction.", "quantifier": "every padding-free length and level", "why_tests_cant": "all lengths/levels", "anchors": ["src/ptwt/matmul_transform.py::MatrixWavedec.sparse_fwt_operator", "src/ptwt/matmul_transform.py::MatrixWaverec.sparse_ifwt_operator", "src/ptwt/sparse_math.py::cat_sparse_identity_matrix"]}
{"id": "C42", "title": "Matrix objects can be reused", "statement": "A MatrixWavedec/MatrixWaverec object gives, on each call of any call history, the result a freshly constructed object would give for that input.", "quantifier": "every sequence of calls with arbitrary lengths and dtypes", "why_tests_cant": "history property of the matrix cache", "anchors": ["src/ptwt/matmul_transform.py::MatrixWavedec.__call__", "src/ptwt/matmul_transform.py::MatrixWaverec.__call__"]}
{"id": "C43", "title": "2d boundary-wavelet perfect reconstruction", "statement": "MatrixWaverec2(MatrixWavedec2(x)) agrees with x at every position for orthogonal filter banks (separable or not), at most one extra trailing sample per axis.", "quantifier": "every tensor, axes, level, odd-padding mode", "why_tests_cant": "all shapes and parities", "anchors": ["src/ptwt/matmul_transform_2.py::MatrixWavedec2", "src/ptwt/matmul_transform_2.py::MatrixWaverec2", "src/ptwt/matmul_transform_2.py::_matrix_pad_2"]}
{"id": "C44", "title": "2d detail orientation is the same in every 2d transform", "statement": "The horizontal/vertical detail tensors of MatrixWavedec2 (separable or not), WaveletPacket2D (separable or not) and wavedec2 denote the same filter pair per axis.", "quantifier": "every tensor", "why_tests_cant": "needs an argument over all signals that the tensors coincide or a witness that they do not", "anchors": ["src/ptwt/matmul_transform_2.py::MatrixWavedec2", "src/ptwt/conv_transform_2.py::wavedec2", "src/ptwt/packets.py::WaveletPacket2D._transform_fsdict_to_tuple_func"]}
{"id": "C45", "title": "3d boundary-wavelet perfect reconstruction", "statement": "MatrixWaverec3(MatrixWavedec3(x)) agrees with x at every position for orthogonal filter banks, at most one extra trailing sample per axis.", "quantifier": "every tensor, axes, level", "why_tests_cant": "all shapes and parities", "anchors": ["src/ptwt/matmul_transform_3.py::MatrixWavedec3", "src/ptwt/matmul_transform_3.py::MatrixWaverec3"]}
{"id": "C46", "title": "cwt output shape and freedom from wrap-around", "statement": "For every scale the cwt row has exactly the time length of the data or a ValueError is raised, and the FFT product equals the linear convolution of the data with the sampled integrated wavelet (no circular aliasing).", "quantifier": "every signal length, every sampled wavelet length, every scale list", "why_tests_cant": "all lengths", "anchors": ["src/ptwt/continuous_transform.py::cwt", "src/ptwt/continuous_transform.py::_next_fast_len"]}
{"id": "C47", "title": "cwt rows are independent", "statement": "The row of the cwt for a scale does not depend on the other scales or their order (the reused FFT of the data is always of the right size), and batch entries are transformed independently.", "quantifier": "every list of scales", "why_tests_cant": "history property of the reused FFT", "anchors": ["src/ptwt/continuous_transform.py::cwt"]}
{"id": "C48", "title": "Zero filter-bank loss guarantees invertibility", "statement": "perfect_reconstruction_loss and alias_cancellation_loss vanish iff the PR / alias-cancellation identities hold; hence if product_filter_loss() = 0 for an even-length learnable filter bank then waverec inverts wavedec for every signal.", "quantifier": "every real filter bank, every signal", "why_tests_cant": "continuum of filters and signals", "anchors": ["src/ptwt/wavelets_learnable.py::WaveletFilter", "src/ptwt/wavelets_learnable.py::ProductFilter", "src/ptwt/conv_transform.py::wavedec", "src/ptwt/conv_transform.py::waverec"]}
{"id": "C49", "title": "Orthogonality losses", "statement": "filt_bank_orthogonality_loss vanishes iff the synthesis filters are the reversed analysis filters; rec_lo_orthogonality_loss vanishes iff the low-pass filter is orthonormal to its even shifts.", "quantifier": "every real filter bank", "why_tests_cant": "continuum of filters", "anchors": ["src/ptwt/wavelets_learnable.py::SoftOrthogonalWavelet"]}
{"id": "C50", "title": "Coefficient tree map", "statement": "Mapping over coefficient structures keeps the container kind, the number of levels, and dictionary keys, applies the function to every tensor exactly once, and respects identity and composition.", "quantifier": "every coefficient structure and function", "why_tests_cant": "all structures", "anchors": ["src/ptwt/_util.py::_coeff_tree_map", "src/ptwt/_util.py::_flatten_2d_coeff_lst"]}
{"id": "C51", "title": "Deprecated argument names", "statement": "Calling with a deprecated keyword is equivalent to calling with its new name; passing both raises TypeError; other keywords are untouched.", "quantifier": "every keyword assignment", "why_tests_cant": "all keyword sets", "anchors": ["src/ptwt/_util.py::_deprecated_alias"]}
{"id": "C52", "title": "dtype and device are preserved", "statement": "Every tensor returned by wavedec/waverec (and 2d, 3d, swt, matrix variants) has the dtype and device of the input.", "quantifier": "every input", "why_tests_cant": "all inputs", "anchors": ["src/ptwt/_util.py::_get_filter_tensors", "src/ptwt/conv_transform.py::wavedec", "src/ptwt/conv_transform.py::waverec"]}
{"id": "C53", "title": "2d sparse_fwt_operator is the whole transform", "statement": "After a padding-free call of a non-separable MatrixWavedec2 on a batch of images, sparse_fwt_operator applied to the images stored column by column equals the concatenation of the returned coefficient tensors stored column by column; sparse_ifwt_operator of MatrixWaverec2 maps that concatenation back to the images. Separable objects and padded transforms with several levels raise NotImplementedError, objects that were not called raise ValueError.", "quantifier": "every batch of images, every level, orthogonal filter bank", "why_tests_cant": "all sizes and levels", "anchors": ["src/ptwt/matmul_transform_2.py::MatrixWavedec2.sparse_fwt_operator", "src/ptwt/matmul_transform_2.py::MatrixWaverec2.sparse_ifwt_operator", "src/ptwt/sparse_math.py::cat_sparse_identity_matrix"]}
{"id": "C54", "title": "boundary-mode packet nodes", "statement": "With mode='boundary', after transform(x) every readable node of a WaveletPacket or WaveletPacket2D is obtained from x by one level of the boundary-wavelet transform per letter of its name (with the orthogonal boundary matrices of C39, odd sizes extended by a zero); the value does not depend on the order of reads nor on anything done with the object before on data of the same dtype and device, although the transform objects are cached. With the default maxlevel every node up to maxlevel is readable.", "quantifier": "every tensor, axis, orthogonal filter bank, node name, every history of operations on the object", "why_tests_cant": "the cached transform objects make results depend on the history unless proved otherwise; all histories, sizes and depths", "anchors": ["src/ptwt/packets.py::WaveletPacket._get_wavedec", "src/ptwt/packets.py::WaveletPacket2D._get_wavedec", "src/ptwt/packets.py::WaveletPacket._expand_node", "src/ptwt/packets.py::WaveletPacket2D._expand_node"]}
{"id": "C55", "title": "boundary-mode packet reconstruction", "statement": "With mode='boundary', if all leaves at maxlevel were computed and not modified, reconstruct() succeeds and replaces the root by a tensor that agrees with the transformed data at every position (one extra trailing sample per odd axis); at the default depth transform, any reads, initialize(leaves), reconstruct never fails. A missing leaf raises KeyError.", "quantifier": "every tensor, axis, orthogonal filter bank, depth, history", "why_tests_cant": "all sizes, depths and histories, with cached transform objects shared between nodes of equal size", "anchors": ["src/ptwt/packets.py::WaveletPacket.reconstruct", "src/ptwt/packets.py::WaveletPacket2D.reconstruct", "src/ptwt/packets.py::WaveletPacket._get_waverec", "src/ptwt/packets.py::WaveletPacket2D._get_waverec"]}
{"id": "C56", "title": "packet objects can be reused", "statement": "Calling transform() again on a packet object with mode='boundary' gives the same nodes as a fresh object, whatever was done with the object before.", "quantifier": "every history of operations, every new input", "why_tests_cant": "all histories; the object keeps caches keyed by size", "anchors": ["src/ptwt/packets.py::WaveletPacket.transform", "src/ptwt/packets.py::WaveletPacket2D.transform", "src/ptwt/matmul_transform.py::MatrixWavedec", "src/ptwt/matmul_transform_2.py::MatrixWavedec2"]}
{"id": "C57", "title": "levels compose", "statement": "Analysing with l1 levels and then analysing the returned approximation with l2 levels gives exactly the coefficients of one call with l1+l2 levels (the details of the second call followed by those of the first); conversely every successful call with l1+l2 levels splits this way. Holds for wavedec, wavedec2, wavedec3, fswavedec2 and fswavedec3.", "quantifier": "every tensor, axes, mode, even filter bank and pair of level counts", "why_tests_cant": "all sizes, level counts and modes; odd sizes and padding interact between levels", "anchors": ["src/ptwt/conv_transform.py::wavedec", "src/ptwt/conv_transform_2.py::wavedec2", "src/ptwt/conv_transform_3.py::wavedec3", "src/ptwt/separable_conv_transform.py::fswavedec2", "src/ptwt/separable_conv_transform.py::fswavedec3"]}
{"id": "C58", "title": "packet nodes on the approximation branch are the ordinary coefficients", "statement": "After transform(x, maxlevel) and any reads, the node a...a (l letters) of a packet object equals the approximation returned by wavedec / wavedec2 / fswavedec2 with level l, and the nodes a..ad (a..ah, a..av, a..ad in 2d) equal its detail coefficients of the corresponding level.", "quantifier": "every tensor, filter bank, padding mode, axes, level and history of reads", "why_tests_cant": "all sizes, depths and histories; relates two independently written APIs", "anchors": ["src/ptwt/packets.py::WaveletPacket", "src/ptwt/packets.py::WaveletPacket2D", "src/ptwt/conv_transform.py::wavedec", "src/ptwt/conv_transform_2.py::wavedec2", "src/ptwt/separable_conv_transform.py::fswavedec2"]}
{"id": "C59", "title": "linearity in two and three dimensions", "statement": "For wavedec, wavedec2, wavedec3, fswavedec2, fswavedec3 the coefficients of a*x + b*y are a*(coefficients of x) + b*(coefficients of y), entry by entry, in the same container; for waverec2, waverec3, fswaverec2, fswaverec3 the reconstruction of a*c + b*c' is a*(reconstruction of c) + b*(reconstruction of c').", "quantifier": "every pair of tensors (or coefficient containers) of equal shapes, scalars, axes, mode, level, filter bank", "why_tests_cant": "all shapes, values and modes", "anchors": ["src/ptwt/conv_transform_2.py::wavedec2", "src/ptwt/conv_transform_3.py::wavedec3", "src/ptwt/separable_conv_transform.py::fswavedec2", "src/ptwt/separable_conv_transform.py::fswavedec3", "src/ptwt/conv_transform_2.py::waverec2", "src/ptwt/conv_transform_3.py::waverec3", "src/ptwt/separable_conv_transform.py::fswaverec2", "src/ptwt/separable_conv_transform.py::fswaverec3"]}
{"id": "C60", "title": "waverec2 and waverec3 reject inconsistent coefficients", "statement": "waverec2 and waverec3 return a value only if the first coefficient is a tensor of supported dtype, every level is a tuple with at least three tensors (a dictionary with exactly the seven keys), all used tensors have the dtype and device of the approximation, as many signals, equal transformed sizes within a level, and the level sizes follow each other as in a wavelet decomposition for this filter length; otherwise they raise. Consistent containers are accepted (also by fswaverec2 and fswaverec3).", "quantifier": "every coefficient container whatsoever, filter length, axes", "why_tests_cant": "all malformed inputs; tests try a handful", "anchors": ["src/ptwt/conv_transform_2.py::waverec2", "src/ptwt/conv_transform_3.py::waverec3", "src/ptwt/_util.py::_preprocess_coeffs", "src/ptwt/_util.py::_check_same_device_dtype"]}
{"id": "C61", "title": "signals of a batch do not interact in two and three dimensions", "statement": "For the analysis functions wavedec(2,3), fswavedec2/3 and the synthesis functions waverec2/3, fswaverec2/3: taking one image (volume) of the batch, i.e. fixing the indices of all untouched axes, and calling the function on it with default axes gives exactly the corresponding slice of the result of the batched call with arbitrary axes.", "quantifier": "every tensor rank, choice of axes, batch index, mode, level, filter bank", "why_tests_cant": "all ranks, axes and batch positions", "anchors": ["src/ptwt/_util.py::_preprocess_tensor", "src/ptwt/_util.py::_preprocess_coeffs", "src/ptwt/_util.py::_postprocess_coeffs", "src/ptwt/_util.py::_postprocess_tensor", "src/ptwt/conv_transform_2.py::wavedec2", "src/ptwt/conv_transform_3.py::wavedec3", "src/ptwt/separable_conv_transform.py::fswavedec2"]}
{"id": "C62", "title": "axis order and axis sign only rename the details", "statement": "Naming the transformed axes in another order, or with negative instead of positive numbers, gives the same approximation and the same detail tensors: in wavedec2 exchanging the two axes exchanges horizontal and vertical details, in wavedec3, fswavedec2 and fswavedec3 the letters of every key are permuted like the axes. The default level is the same.", "quantifier": "every tensor, mode, level, filter bank and every permutation of the axes", "why_tests_cant": "all ranks, axes, permutations and sizes", "anchors": ["src/ptwt/conv_transform_2.py::wavedec2", "src/ptwt/conv_transform_3.py::wavedec3", "src/ptwt/separable_conv_transform.py::fswavedec2", "src/ptwt/separable_conv_transform.py::fswavedec3", "src/ptwt/_util.py::_swap_axes"]}
{"id": "C63", "title": "no detail where the data does not change", "statement": "If the high-pass filter sums to zero and x does not change along one of the transformed axes, then at every level all detail tensors that are high-pass along this axis are exactly zero, for every boundary mode except zero padding (with zero padding the border produces details).", "quantifier": "every tensor constant along an axis, mode, level, filter bank with zero-sum high-pass", "why_tests_cant": "all sizes, levels and modes; depends on the padding of every level being an extension of the data", "anchors": ["src/ptwt/conv_transform.py::wavedec", "src/ptwt/conv_transform.py::_fwt_pad", "src/ptwt/conv_transform_2.py::wavedec2", "src/ptwt/conv_transform_3.py::wavedec3", "src/ptwt/separable_conv_transform.py::fswavedec2", "src/ptwt/separable_conv_transform.py::fswavedec3"]}
{"id": "C64", "title": "boundary-wavelet transforms preserve energy in two and three dimensions", "statement": "For an orthogonal filter bank, if the transformed sizes are divisible by 2^J (J the number of levels computed), the sum of squares of all coefficients returned by MatrixWavedec2 (both separable settings) and MatrixWavedec3 equals the sum of squares of the input, over any batch and any choice of axes.", "quantifier": "every tensor, axes, level, orthogonalisation method and orthogonal filter bank with independent boundary rows", "why_tests_cant": "all sizes, levels and values", "anchors": ["src/ptwt/matmul_transform_2.py::MatrixWavedec2", "src/ptwt/matmul_transform_3.py::MatrixWavedec3", "src/ptwt/matmul_transform.py::construct_boundary_a"]}
{"id": "C65", "title": "boundary-wavelet transforms are onto", "statement": "For every container of coefficients with the sizes of a J-level transform (arbitrary values), MatrixWaverec / MatrixWaverec2 / MatrixWaverec3 returns a tensor x of the corresponding size, and MatrixWavedec / 2 / 3 with level J applied to x returns exactly the given container: decomposing a reconstruction changes nothing.", "quantifier": "every container of matching sizes, J, axes, method, orthogonal filter bank", "why_tests_cant": "all values, sizes and levels; tests only check the other direction of the round trip", "anchors": ["src/ptwt/matmul_transform.py::MatrixWavedec", "src/ptwt/matmul_transform.py::MatrixWaverec", "src/ptwt/matmul_transform_2.py::MatrixWavedec2", "src/ptwt/matmul_transform_2.py::MatrixWaverec2", "src/ptwt/matmul_transform_3.py::MatrixWavedec3", "src/ptwt/matmul_transform_3.py::MatrixWaverec3"]}
{"id": "C66", "title": "linearity of the stationary, packet, boundary and continuous transforms", "statement": "swt, the packet nodes (1d and 2d, any padding mode), MatrixWavedec, MatrixWavedec2 (both settings), MatrixWavedec3 and cwt map a*x + b*y to a*(result of x) + b*(result of y) in the same container; iswt, MatrixWaverec, MatrixWaverec2, MatrixWaverec3 map a*c + b*c' to a*(result of c) + b*(result of c'). For cwt with a real wavelet the scalars must be real.", "quantifier": "every pair of inputs of equal shapes and dtype, scalars, level, axes, mode, filter bank", "why_tests_cant": "all shapes, values, levels and modes", "anchors": ["src/ptwt/stationary_transform.py::swt", "src/ptwt/stationary_transform.py::iswt", "src/ptwt/packets.py::WaveletPacket", "src/ptwt/packets.py::WaveletPacket2D", "src/ptwt/matmul_transform.py::MatrixWavedec", "src/ptwt/matmul_transform_2.py::MatrixWavedec2", "src/ptwt/matmul_transform_3.py::MatrixWavedec3", "src/ptwt/matmul_transform.py::MatrixWaverec", "src/ptwt/continuous_transform.py::cwt"]}
{"id": "C67", "title": "Learnable continuous wavelets are the wavelets of their effective frequencies", "statement": "For every value of its two trainable parameters a learnable Shannon or complex Morlet wavelet has nonnegative bandwidth and centre frequency, and a freshly built one has the frequencies of its name. wavefun(precision), precision >= 1, returns 2**precision equidistant points from the lower to the upper bound and the closed-form wavelet of the effective frequencies on them; with symmetric bounds zero is never on that grid, so no value is 0/0, and mirrored points carry conjugate values. cwt with such a module equals cwt with a fixed wavelet of the same values, leaves the parameters unchanged and leaves the module on the data's device; a zero bandwidth parameter yields only nan, data on another gpu raises RuntimeError.", "quantifier": "all parameter values, frequencies, rational bounds, precisions, data tensors and scales", "why_tests_cant": "the parameters move through a continuum during training; tests look at fresh wavelets and a few precisions.", "anchors": ["src/ptwt/continuous_transform.py::_DifferentiableContinuousWavelet", "src/ptwt/continuous_transform.py::_ShannonWavelet", "src/ptwt/continuous_transform.py::_ComplexMorletWavelet", "src/ptwt/continuous_transform.py::cwt"]}
{"id": "C68", "title": "coefficients are local and move with the signal", "statement": "For wavedec, wavedec2, wavedec3, fswavedec2 and fswavedec3: the level-j coefficient at position k whose window 2^j k - (2^j - 1)(L - 2) ... 2^j (k + 1) - 1 (along every transformed axis) lies inside the data depends only on the samples of that window: not on the boundary mode, the size of the data, the requested level, the other batch entries or the samples elsewhere. If another input contains the same window moved by 2^j s samples, its coefficient at position k + s of level j is the same.", "quantifier": "every pair of inputs, modes, sizes, levels, positions, shifts, filter banks of even length", "why_tests_cant": "all positions, levels, sizes and contents outside the window", "anchors": ["src/ptwt/conv_transform.py::wavedec", "src/ptwt/conv_transform.py::_fwt_pad", "src/ptwt/conv_transform_2.py::wavedec2", "src/ptwt/conv_transform_3.py::wavedec3", "src/ptwt/separable_conv_transform.py::fswavedec2", "src/ptwt/separable_conv_transform.py::fswavedec3"]}
{"id": "C69", "title": "away from the borders the boundary-wavelet transforms are the plain filter bank", "statement": "For an orthogonal filter bank of length L and any of the two orthogonalisation methods: a level-j coefficient of MatrixWavedec / MatrixWavedec2 (both settings) / MatrixWavedec3 whose window 2^j k - (2^j - 1)(L/2 - 1) ... 2^j k + (2^j - 1) L/2 lies inside the data depends only on that window - not on size, padding mode, orthogonalisation method, separable setting or the rest of the data - moves with the signal, and equals the coefficient at k + L/2 - 1 of level j that wavedec / wavedec2 / wavedec3 computes from the data delayed by L/2 - 1 samples, in any padding mode.", "quantifier": "every pair of inputs, sizes, levels, axes, positions, shifts, methods, modes, orthogonal filter banks with independent boundary rows", "why_tests_cant": "all sizes, positions and contents outside the window; the matrices are built by orthogonalisation, so tests see only a few sizes", "anchors": ["src/ptwt/matmul_transform.py::MatrixWavedec", "src/ptwt/matmul_transform.py::construct_boundary_a", "src/ptwt/matmul_transform_2.py::MatrixWavedec2", "src/ptwt/matmul_transform_2.py::construct_boundary_a2", "src/ptwt/matmul_transform_3.py::MatrixWavedec3", "src/ptwt/conv_transform.py::wavedec", "src/ptwt/conv_transform_2.py::wavedec2", "src/ptwt/conv_transform_3.py::wavedec3"]}
{"id": "C70", "title": "the other transforms treat every fibre on its own", "statement": "swt, iswt, MatrixWavedec, MatrixWavedec2 (both settings), MatrixWavedec3, their reconstruction objects, every node of WaveletPacket and WaveletPacket2D (padded modes and mode='boundary') and cwt act on each batch entry independently: taking one fibre (image, volume) of the input along the transformed axes and transforming it alone with the default axes gives that fibre of the transform of the whole batch. No value of one batch entry influences another, and neither the number of batch entries nor the position of the transformed axes matters.", "quantifier": "every batched input, axes, level, mode, method, path, batch position, filter bank of even length (orthogonal for the boundary transforms)", "why_tests_cant": "batches, axis layouts and sizes are unbounded; a leak between entries would be invisible on the sampled ones", "anchors": ["src/ptwt/stationary_transform.py::swt", "src/ptwt/stationary_transform.py::iswt", "src/ptwt/matmul_transform.py::MatrixWavedec", "src/ptwt/matmul_transform.py::MatrixWaverec", "src/ptwt/matmul_transform_2.py::MatrixWavedec2", "src/ptwt/matmul_transform_2.py::MatrixWaverec2", "src/ptwt/matmul_transform_3.py::MatrixWavedec3", "src/ptwt/matmul_transform_3.py::MatrixWaverec3", "src/ptwt/packets.py::WaveletPacket", "src/ptwt/packets.py::WaveletPacket2D", "src/ptwt/continuous_transform.py::cwt"]}
{"id": "C71", "title": "levels nest: analysing the approximation continues the analysis", "statement": "MatrixWavedec2 (both settings) and MatrixWavedec3 with level l1 + l2 return what level l2 returns for the approximation of level l1, followed by the details of level l1. MatrixWavedec does the same unless the level l1 approximation is shorter than the filters, where the long analysis stops and returns the level l1 result (if it has exactly L - 1 samples a second call nevertheless pads it and computes another level). swt with level l1 <= l2 returns the last l1 detail tensors of level l2.", "quantifier": "every input, pair of levels, axes, padding mode, method, filter bank (orthogonal for the boundary transforms)", "why_tests_cant": "all sizes, levels and values; tests compare against pywt at single levels", "anchors": ["src/ptwt/stationary_transform.py::swt", "src/ptwt/matmul_transform.py::MatrixWavedec", "src/ptwt/matmul_transform_2.py::MatrixWavedec2", "src/ptwt/matmul_transform_3.py::MatrixWavedec3"]}
{"id": "C72", "title": "boundary packets contain the boundary-wavelet transform", "statement": "After transform(x) on a WaveletPacket / WaveletPacket2D object with mode='boundary', whatever the object was used for before and whatever has been read since, node 'a...a' (J letters) is the approximation and nodes 'a...ad' (1d) or 'a...ah', 'a...av', 'a...ad' (2d) are the details that MatrixWavedec / MatrixWavedec2 with zero odd padding returns for x at level J.", "quantifier": "every input, level J up to the maximum level, axis, method, separable setting, history, orthogonal filter bank", "why_tests_cant": "histories, sizes and levels are unbounded", "anchors": ["src/ptwt/packets.py::WaveletPacket", "src/ptwt/packets.py::WaveletPacket2D", "src/ptwt/matmul_transform.py::MatrixWavedec", "src/ptwt/matmul_transform_2.py::MatrixWavedec2"]}
{"id": "C73", "title": "zero padding preserves the energy for every size", "statement": "For an orthogonal filter bank and zero odd padding the sum of squares of all coefficients of MatrixWavedec, MatrixWavedec2 (both settings) and MatrixWavedec3 equals the sum of squares of the input for all sizes, odd ones included; and for a boundary packet object the energies of all nodes of one level add up to the energy of the input.", "quantifier": "every input, axes, level, method, history of the packet object, orthogonal filter bank", "why_tests_cant": "all sizes, levels and values", "anchors": ["src/ptwt/matmul_transform.py::MatrixWavedec", "src/ptwt/matmul_transform_2.py::MatrixWavedec2", "src/ptwt/matmul_transform_3.py::MatrixWavedec3", "src/ptwt/packets.py::WaveletPacket", "src/ptwt/packets.py::WaveletPacket2D"]}
{"id": "C74", "title": "the key order of coefficient dictionaries does not matter", "statement": "waverec3, fswaverec2, fswaverec3 and MatrixWaverec3 give the same result (and MatrixWaverec3 leaves the object in the same state) for two coefficient containers that differ only in the order in which the keys of their detail dictionaries were inserted, for example after loading or merging dictionaries.", "quantifier": "every container with dictionaries of distinct keys (all of one length for fswaverec2/3, three letters for MatrixWaverec3), every permutation of every dictionary, level count, axes, filter bank; also for sizes that are cropped", "why_tests_cant": "there are 7! orders per level, and the code iterates over the dictionary while building new ones", "anchors": ["src/ptwt/conv_transform_3.py::waverec3", "src/ptwt/separable_conv_transform.py::fswaverec2", "src/ptwt/separable_conv_transform.py::fswaverec3", "src/ptwt/separable_conv_transform.py::_separable_conv_idwtn", "src/ptwt/matmul_transform_3.py::MatrixWaverec3", "src/ptwt/matmul_transform_3.py::_cat_coeff_recursive"]}
{"id": "C75", "title": "the stationary transform weighs the levels by powers of two", "statement": "For an orthogonal filter bank (and sizes divisible by 2^(levels - 1), or the Haar length 2) the coefficients of swt at level J satisfy 2^J * energy(x) = energy(cA_J) + energy(cD_J) + 2 * energy(cD_(J-1)) + ... + 2^(J-1) * energy(cD_1), where energy is the sum of squares over the whole tensor including the batch.", "quantifier": "every input, axis, level, orthogonal filter bank", "why_tests_cant": "all sizes, levels and values", "anchors": ["src/ptwt/stationary_transform.py::swt"]}
{"id": "C76", "title": "the n-d functions are the 1-d functions applied axis by axis", "statement": "One level of wavedec2 / wavedec3 / fswavedec2 / fswavedec3 succeeds exactly if wavedec(level=1) succeeds along the last axis, then along the axis before it on both results, and so on, and it returns exactly the resulting tensors: the letter of a key at position i tells which output ('a' or 'd') was taken along axis i, and wavedec2 returns (aa, (da, ad, dd)). Conversely one level of waverec2 / waverec3 / fswaverec2 / fswaverec3 is waverec along the first axis of every pair, then along the second, and so on.", "quantifier": "every input, axes, boundary mode, filter bank of even length; every family of coefficients of one shape", "why_tests_cant": "batches, sizes, axes and values are unbounded; the n-d functions build n-d filters, so nothing in the code makes them agree with the 1-d functions", "anchors": ["src/ptwt/conv_transform.py::wavedec", "src/ptwt/conv_transform.py::waverec", "src/ptwt/conv_transform_2.py::wavedec2", "src/ptwt/conv_transform_2.py::waverec2", "src/ptwt/conv_transform_3.py::wavedec3", "src/ptwt/conv_transform_3.py::waverec3", "src/ptwt/separable_conv_transform.py::fswavedec2", "src/ptwt/separable_conv_transform.py::fswavedec3", "src/ptwt/separable_conv_transform.py::fswaverec2", "src/ptwt/separable_conv_transform.py::fswaverec3"]}
{"id": "C77", "title": "a packet read computes from the nearest stored ancestor and touches only that path", "statement": "For a packet object in any state (nodes assigned or deleted by hand, reads, reconstructions): reading node q returns the value computed from its longest stored prefix r by one analysis step per remaining letter (q itself if stored). It stores exactly the children of the nodes from r down to the parent of q, as far as the analysis succeeds, and changes no other node: a stored node p+c is replaced only if p is a proper prefix of q and no longer prefix of q is stored; the root is never replaced. A path with a foreign letter raises ValueError and changes nothing, and so does a path without any stored prefix.", "quantifier": "every object state (for mode='boundary': every history of data of one dtype and device), every key, mode, level, filter bank", "why_tests_cant": "the states of the object dictionary are unbounded; the recursion assigns nodes as a side effect", "anchors": ["src/ptwt/packets.py::WaveletPacket.__getitem__", "src/ptwt/packets.py::WaveletPacket._expand_node", "src/ptwt/packets.py::WaveletPacket2D.__getitem__", "src/ptwt/packets.py::WaveletPacket2D._expand_node"]}
{"id": "C78", "title": "vanishing moments remove polynomial data", "statement": "If the analysis high-pass filter has p vanishing moments, then in wavedec, wavedec2, wavedec3, fswavedec2 and fswavedec3 every coefficient of a detail tensor that contains this filter on axis i is exactly zero whenever its window of samples (C68) lies inside the signal and the data in that window is, along axis i, a polynomial of degree less than p in the position (a different polynomial on each line, if there are other axes); the mode, the level and the values outside the window do not matter.", "quantifier": "every filter bank of even length, number of moments p, level, size, mode, axes, data and polynomial", "why_tests_cant": "polynomials, sizes and levels are unbounded; the approximations that enter deeper levels are polynomials again only because of an algebraic identity", "anchors": ["src/ptwt/conv_transform.py::wavedec", "src/ptwt/conv_transform_2.py::wavedec2", "src/ptwt/conv_transform_3.py::wavedec3", "src/ptwt/separable_conv_transform.py::fswavedec2", "src/ptwt/separable_conv_transform.py::fswavedec3"]}
{"id": "C79", "title": "a reconstructed sample depends only on the coefficients around it", "statement": "waverec, waverec2, waverec3, fswaverec2 and fswaverec3: if two coefficient structures of the same shapes agree at every level on the coefficients whose analysis window (C68: position k of level j covers samples 2^j k - (2^j-1)(L-2) .. 2^j (k+1) - 1 on each axis) contains an output position, then both reconstructions have the same value there.", "quantifier": "every filter bank, number of levels, shape, axes, pair of coefficient structures and output position", "why_tests_cant": "the dependency cone runs through all levels and grows with them", "anchors": ["src/ptwt/conv_transform.py::waverec", "src/ptwt/conv_transform_2.py::waverec2", "src/ptwt/conv_transform_3.py::waverec3", "src/ptwt/separable_conv_transform.py::fswaverec2", "src/ptwt/separable_conv_transform.py::fswaverec3"]}
{"id": "C80", "title": "cwt coefficients are local and move with the signal", "statement": "For a scale at which the wavelet has M samples, the cwt value at time t is determined by the M+1 data samples at t - (M-1-floor((M-2)/2)) .. t + floor((M-2)/2) + 1, where samples before the beginning and after the end of the data count as zero. Two calls give the same value at times t and t' if their data agree on these windows, whatever the lengths, the other signals of the batch, the other scales and the rest of the data (in particular moving a signal moves its coefficients, and there is no wrap-around).", "quantifier": "every wavelet, grid, list of scales, data length, batch, time and pair of data tensors", "why_tests_cant": "the implementation multiplies discrete Fourier transforms, in which every output depends on every input", "anchors": ["src/ptwt/constants.py::cwt"]}
{"id": "C81", "title": "orthogonal wavelets with zero padding keep inner products and energy", "statement": "If the filters form an orthogonal bank (orthonormal to their even shifts, reconstruction filters reversed) and the mode is zero, the sum over all coefficient tensors of <c(x), c(y)> equals <x, y> for every two signals of the same shape, so the energy of the coefficients is the energy of the signal. This holds although zero padding makes the transform expansive.", "quantifier": "wavedec, wavedec2, wavedec3, fswavedec2, fswavedec3; every orthogonal bank of even length, tensor size, batch shape, axes, level, pair of signals", "why_tests_cant": "all sizes, levels and values; floating-point tests compare a few sizes with a tolerance", "anchors": ["src/ptwt/conv_transform.py::wavedec", "src/ptwt/conv_transform_2.py::wavedec2", "src/ptwt/conv_transform_3.py::wavedec3", "src/ptwt/separable_conv_transform.py::fswavedec2", "src/ptwt/separable_conv_transform.py::fswavedec3"]}
{"id": "C82", "title": "synthesis with reversed filters is the adjoint of zero-padded analysis", "statement": "Let cx be the coefficients of x under analysis filters (lo, hi) with mode zero, and c any container laid out like cx (same containers, keys, shapes, dtype, device, arbitrary numbers). The matching synthesis function called with reconstruction filters reverse(lo), reverse(hi) accepts c; its result y covers x and <cx, c> = <x, y>. So the gradient of a function of the coefficients with respect to x is that synthesis of the gradient with respect to the coefficients, cut to the shape of x, whether or not the filters are a wavelet.", "quantifier": "the five padded transforms; any filters of even length; every size, batch shape, axes, level, signal and container of that layout", "why_tests_cant": "an identity of bilinear forms over all signals and all coefficient containers", "anchors": ["src/ptwt/conv_transform.py::wavedec", "src/ptwt/conv_transform.py::waverec", "src/ptwt/conv_transform_2.py::waverec2", "src/ptwt/conv_transform_3.py::waverec3", "src/ptwt/separable_conv_transform.py::fswaverec2", "src/ptwt/separable_conv_transform.py::fswaverec3"]}
{"id": "C83", "title": "time-reversed filters on the time-reversed signal give the time-reversed coefficients", "statement": "On axes whose length is even at every analysed level: if the signal is reversed along the transformed axes (torch.flip) and both analysis filters are reversed, every coefficient tensor of the accepted call is reversed along these axes, in the same container. True for every padding mode; on an axis of odd length it fails.", "quantifier": "wavedec, wavedec2, wavedec3, fswavedec2, fswavedec3; any filters of even length; every padding mode, size (even at each level), batch shape, axes, level and signal", "why_tests_cant": "a symmetry over all signals, lengths and levels", "anchors": ["src/ptwt/conv_transform.py::wavedec", "src/ptwt/conv_transform.py::_fwt_pad", "src/ptwt/conv_transform_2.py::wavedec2", "src/ptwt/conv_transform_3.py::wavedec3", "src/ptwt/separable_conv_transform.py::fswavedec2", "src/ptwt/separable_conv_transform.py::fswavedec3"]}
{"id": "C84", "title": "one level with periodic padding is circular and is contained in the stationary transform", "statement": "With mode periodic and one level: (a) on even lengths n, rolling the signal (torch.roll) by 2s along the transformed axes gives coefficients that at position k are the old ones at (k - s) mod n/2 (so the redundant coefficients repeat with period n/2); (b) for every length, odd ones included, coefficient k of wavedec (approximation and detail) is the level-1 coefficient of swt at position (2k + 1 - L/2) mod n.", "quantifier": "(a) wavedec, wavedec2, wavedec3, fswavedec2, fswavedec3, every shift; (b) wavedec against swt; any filters of even length L, every size, batch shape, axes and signal", "why_tests_cant": "an equality of two functions, and an equivariance, over all signals, sizes and shifts", "anchors": ["src/ptwt/conv_transform.py::wavedec", "src/ptwt/conv_transform.py::_fwt_pad", "src/ptwt/conv_transform_2.py::wavedec2", "src/ptwt/conv_transform_3.py::wavedec3", "src/ptwt/separable_conv_transform.py::fswavedec2", "src/ptwt/separable_conv_transform.py::fswavedec3", "src/ptwt/stationary_transform.py::swt"]}
{"id": "C85", "title": "orthogonal synthesis with zero padding is least squares", "statement": "Let the filters form an orthogonal bank, the mode be zero, and c be any container laid out like the coefficients of x (for example thresholded or quantised coefficients). The matching synthesis function accepts c; its result, cut to the size of x, is the unique signal of this size whose coefficients are closest to c (sum of squared differences over all coefficients), and its energy is at most the energy of c. Precisely: |T z - c|^2 = |z - y|^2 + |c|^2 - |y|^2 for every signal z.", "quantifier": "wavedec/waverec, wavedec2/waverec2, wavedec3/waverec3, fswavedec2/3 and fswaverec2/3; every orthogonal bank of even length, size, batch shape, axes, level, container of that layout and competing signal", "why_tests_cant": "optimality among infinitely many signals for every container of coefficients", "anchors": ["src/ptwt/conv_transform.py::wavedec", "src/ptwt/conv_transform.py::waverec", "src/ptwt/conv_transform_2.py::waverec2", "src/ptwt/conv_transform_3.py::waverec3", "src/ptwt/separable_conv_transform.py::fswaverec2", "src/ptwt/separable_conv_transform.py::fswaverec3"]}
{"id": "C86", "title": "with zero padding every coefficient is a correlation with one iterated filter", "statement": "Let the mode be zero and x any signal. Multi-level analysis has a closed form without padding or levels: level-j detail coefficient k (per transformed axis) is the sum over the samples o of x[o] g[2^j (k+1) - 1 - o], where g is the j-fold iterated filter (low-pass upsampled and convolved j-1 times, then the low-pass or high-pass last, according to the orientation on that axis); the approximation uses the low-pass throughout. There are no boundary terms. The same holds for every node of the 1d and 2d wavelet packets, with the filters of its path in the order of its letters.", "quantifier": "wavedec, wavedec2, wavedec3, fswavedec2, fswavedec3, WaveletPacket and WaveletPacket2D (every path, after every history of reads); every pair of filters of even length, size (odd ones included), batch shape, axes, level and signal", "why_tests_cant": "an equality with an independent closed form for every level, path, size and signal", "anchors": ["src/ptwt/conv_transform.py::wavedec", "src/ptwt/conv_transform_2.py::wavedec2", "src/ptwt/conv_transform_3.py::wavedec3", "src/ptwt/separable_conv_transform.py::fswavedec2", "src/ptwt/separable_conv_transform.py::fswavedec3", "src/ptwt/packets.py::WaveletPacket", "src/ptwt/packets.py::WaveletPacket2D"]}
{"id": "C87", "title": "every stationary coefficient is a circular correlation with one iterated filter", "statement": "(a) Coefficient k of level j of swt is the sum over the taps m of g[m] x[(k + (2^j - 1) L/2 - m) mod n], where g is the filter iterated j times (the same iterated filter as for the zero-padded transform), for any even filter length L and any level whose dilation divides n. (b) iswt commutes with circular shifts: shifting all coefficient tensors by s shifts its result by s, whether or not the tensors came from swt. (c) Where no window crosses a border, the level-j detail coefficient k of zero-padded wavedec is the stationary one at position 2^j (k + 1) - 1 - (2^j - 1) L/2 mod n.", "quantifier": "swt, iswt and wavedec; every pair of filters of even length, size, batch shape, axis, level, shift and signal or coefficient tensors", "why_tests_cant": "an equality with a closed form, and an equivariance, over all signals, sizes, levels and shifts", "anchors": ["src/ptwt/stationary_transform.py::swt", "src/ptwt/stationary_transform.py::iswt", "src/ptwt/stationary_transform.py::_circular_pad", "src/ptwt/conv_transform.py::wavedec"]}
