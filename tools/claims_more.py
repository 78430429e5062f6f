def more(p,thms,note=None,status=None):
    for c in C:
        if c['property']==p:
            c['theorems']+=thms.split()
            if note is not None: c['note']=(c['note']+' '+note).strip()
            if status: c['status']=status
            return
    raise KeyError(p)
more("C07","C07_default_level_2d","2d variant included.")
more("C08","C08_which_levels_2d C08_which_levels_3d","2d and 3d variants included.")
claim("C10","proved","C10_value_error C10_no_result C10_unknown_mode C10_unknown_mode_zero_level_refuted","wavedec/wavedec2/wavedec3. Refuted corner: an unknown mode is not rejected when no level is computed.")
claim("C13","proved","C13_perfect_reconstruction_2d","")
claim("C14","proved","C14_wavedec2_is_dwt2","")
claim("C15","proved","C15_perfect_reconstruction_3d","")
claim("C16","proved","C16_wavedec3_keys","")
claim("C17","partial","C17_zero_level C17_zero_level_2d C17_zero_level_separable C17_wavedec3_zero_level_refuted","Proved for wavedec and wavedec2; refuted for wavedec3 (finding); C17_zero_level_separable covers fswavedec2/3.")
claim("C52","proved","C52_analysis C52_synthesis C52_swt C52_iswt C52_fswavedec C52_fswaverec C52_MatrixWavedec C52_MatrixWaverec C52_MatrixWavedec2 C52_MatrixWaverec2 C52_MatrixWavedec3 C52_MatrixWaverec3","Every returned tensor has the dtype and device of the input (of the approximation, for a synthesis); for the matrix objects in any state, separable or not. Non-vacuity: ex_C52.")
more("C07","C07_default_level_separable","fswavedec2/3 included.")
more("C08","C08_which_levels_separable","fswavedec2/3 included.")
claim("C18","proved","C18_separable_2d C18_separable_3d C18_synthesis_2d C18_synthesis_3d","Equality of results in both directions for analysis (3d: with at least one level, see C17); synthesis on all coefficients whose shapes fit together.")
claim("C19","proved","C19_perfect_reconstruction_separable","")

claim("C22","proved","C22_swt_shapes","Every non-empty axis, divisible or not; an empty axis does not terminate (ex_swt_empty).")
claim("C23","proved","C23_swt_formula C23_coefficient C23_default_level C23_shift C23_odd_length_refuted","Also for L = 2 without divisibility; C23_odd_length_refuted shows the divisibility hypothesis is needed.")
claim("C24","proved","C24_iswt_swt C24_default_level C24_iswt_formula C24_odd_length_refuted","torch.mean over two channels is multiplication by an element half with half+half=1. C24_odd_length_refuted: the divisibility hypothesis is needed.")
claim("C25","partial","C25_circular_pad_partial C25_when_ok C25_circular_pad_refuted C25_exact","Full statement is false (refuted: 3 samples padded by (2,4)); proved for all widths where no partial wrap is followed by another round, and C25_exact shows that condition is necessary as well as sufficient, so the theorem cannot be widened.")

claim("C26","proved","C26_packet_reads_1d C26_packet_reads_2d C26_node_formula_1d C26_node_formula_2d C26_default_level_1d C26_default_level_2d","Padding modes; arbitrary interleaving of reads and initialize.")
claim("C27","proved","C27_no_data C27_too_long C27_foreign_letter C27_foreign_1d C27_foreign_2d","")
claim("C28","proved","C28_reconstruct_1d C28_reconstruct_2d C28_initialize_reconstruct_1d C28_initialize_reconstruct_2d C28_round_trip_1d C28_round_trip_2d C28_no_levels","Padding modes.")
claim("C29","partial","C29_missing_leaf_1d C29_missing_leaf_2d C29_missing_leaf_key_error_1d C29_missing_leaf_key_error_2d C29_only_leaves_1d_partial C29_only_leaves_2d_partial C29_only_leaves_refuted","Only-leaves: proved when all inner nodes are stored; refuted in general (a stored inner node with an unstored sibling is re-expanded from the old root).")
claim("C30","partial","C30_assigned_persists_partial C30_assigned_persists_refuted","Refuted in general (reading an unstored sibling overwrites the assigned node); proved whenever the siblings are stored.")
claim("C31","proved","C31_orders_1d C31_unknown_order","")
claim("C32","partial","C32_natural_2d C32_freq_2d C32_level_zero_refuted C32_unknown_order","get_freq_order is proved for levels >= 1 and refuted at level 0 (empty grid).")

claim("C33","proved","C33_sparse_kron C33_dtype C33_other_device C33_dense_kron","Every pair of entry lists. Excluded corner (shown in ex_kron_corner): a matrix without stored entries with a zero in the output size raises RuntimeError.")
claim("C34","proved","C34_conv_matrix C34_strided_conv_matrix C34_unknown_mode","Excluded corner (shown): valid mode with n < filter length raises.")
claim("C35","proved","C35_conv2d_matrix C35_strided_conv2d_matrix C35_narrow_rejected C35_fully_sparse ex_fully_sparse","C35_fully_sparse: both settings of fully_sparse give the same matrix. Images at most half as wide as the filter are rejected in the same-type modes (C35_narrow_rejected).")
claim("C36","proved","C36_replace_row C36_replace_row_rejects C36_replace_row_square_only C36_cat_identity C36_cat_identity_rejects","sparse_replace_row works for square matrices only (C36_replace_row_square_only).")
claim("C37","proved","C37_batch_mm C37_batch_mm_rejects C37_batch_dim_mm","")
claim("C38","proved","C38_gramschmidt C38_qr C38_qr_last_row C38_other_method","Over any domain with square roots of sums of squares and division (instance: the reals, RealLA.v; ex_C38). 'No intermediate row vanishes' = the incomplete rows are linearly independent. Also for the QR method, where the last row must be incomplete (C38_qr_last_row: otherwise RuntimeError).")
claim("C39","proved","C39_raw_matrix C39_boundary_matrices boundary_independent_2 boundary_independent_46 C39_independence_not_automatic","Both methods. The independence of the truncated rows is a hypothesis on the filters alone, discharged for L=2, and for L=4,6 by a non-zero minor; instances Haar and Daubechies-4 over the reals (ExReal.v).")
claim("C40","proved","C40_coefficients C40_reconstruction C40_perfect_reconstruction C40_energy C40_accepts","C40_accepts: exactly which inputs are accepted (reflect odd padding rejects a length-1 axis). Hypotheses on the filters as in C39; instances over the reals in ExMat1.v.")
claim("C41","proved","C41_fwt_operator C41_ifwt_operator C41_no_levels","")
claim("C42","partial","C42_wavedec C42_wavedec_default C42_waverec C42_level_none_refuted C42_short_signal_refuted C42_dtype_refuted C42_waverec_dtype_refuted","Proved for one dtype/device and an explicit level (any shapes, rejected inputs included); with level=None the object behaves as a fresh one with the level of the first accepted input. Refuted without these restrictions (findings).")
claim("C20","partial","C20_fswaverec_containers C20_fswaverec2_mutates_refuted C20_MatrixWaverec3_containers C20_C21_MatrixWaverec3_refuted","Refuted as stated: fswaverec2/3 and MatrixWaverec3 insert an aa..a entry in the caller's dictionaries for rank ndim+1 coefficients and default axes; the exact effect is proved for every call. The other synthesis functions never write to their containers in the model (pure).")
claim("C21","partial","C21_fswaverec_repeatable C20_C21_MatrixWaverec3_refuted C42_waverec C42_waverec2 C42_waverec3","fswaverec2/3 repeatable although they write; MatrixWaverec/2 repeatable (C42_*); MatrixWaverec3 on the same container refuted (second call raises ValueError).")
more("C42","C42_wavedec2 C42_wavedec3 C42_waverec2 C42_waverec3 C42_wavedec2_default C42_wavedec3_default C42_level_none_2d_refuted C42_dtype_2d_refuted","2d and 3d classes included.")
more("C42","C42_nonseparable_wavedec2 C42_nonseparable_waverec2 C42_nonseparable_wavedec2_default","")
more("C39","C39_boundary_matrices_2d","Also the 2d matrices construct_boundary_a2/s2.")
claim("C43","proved","C43_coefficients C43_reconstruction C43_perfect_reconstruction C43_accepts C43_empty_batch C43_nonseparable_coefficients C43_nonseparable_accepts C43_nonseparable_reconstruction C43_nonseparable_perfect_reconstruction","Both values of separable. separable=False needs at least one level and a non-empty batch (C43_nonseparable_accepts). With no level computed and an empty batch MatrixWaverec2 raises (hypothesis of the reconstruction). Hypotheses on the filters as in C39; instances over the reals in ExMatN.v.")
claim("C44","partial","C14_wavedec2_is_dwt2 C43_coefficients C43_nonseparable_coefficients C44_matrix_separable_refuted C44_matrix_nonseparable_example C44_packet_separable_refuted","Refuted: the horizontal/vertical details of MatrixWavedec2(separable=True) and WaveletPacket2D(separable=True) are swapped with respect to wavedec2, MatrixWavedec2(separable=False) and WaveletPacket2D(separable=False). The orientation of each is stated by its coefficient formula.")
claim("C45","partial","C45_coefficients C45_reconstruction C45_perfect_reconstruction C45_accepts C45_zero_level_refuted","Proved whenever at least one level is computed; refuted for zero levels (MatrixWaverec3 raises ValueError on MatrixWavedec3's own output).")

claim("C48","proved","C48_pr_loss C48_alias_loss C48_product_filter_loss C48_zero_loss_invertible C48_pf_alias_loss ex_C48","Over any formally real ring (instance: integers, reals).")
claim("C49","proved","C49_filter_bank C49_low_pass C49_soft_wavelet_loss C49_soft_loss_low_pass ex_C49","rec_lo_orthogonality_loss actually tests dec_lo (finding).")
claim("C50","proved","C50_one_pass C50_identity C50_composition C50_other_rejected C50_flatten C50_four_tuple_refuted ex_C50","Structures: a tensor followed by tensors, triples or dictionaries. Container kind kept for the kinds the API returns. Longer tuples are silently cut (finding).")
claim("C51","proved","C51_both_names C51_same_as_new_names C51_transparent ex_C51","Any alias table whose names are distinct; one warning per old name used.")
claim("C46","proved","C46_cwt C46_too_small C46_biorthogonal C46_integrate C46_real ex_C46 ex_C46_real","Any ring with principal roots of unity (instance: complex numbers over the standard library's reals, CxC_ok); the convolution theorem is proved, not assumed. Exact arithmetic for the sample positions; any increasing grid, positive scales, signals of length >= 1.")
claim("C47","proved","C47_rows_independent C47_accepted ex_C46","")
claim("C53","proved","C53_fwt_operator C53_ifwt_operator C53_padded C53_separable C53_not_called ex_C53","Batches [b; h; v] with the default axes. Hypotheses on the filters as in C39; instance db2 over the reals.")
claim("C54","proved","C54_reads_1d C54_node_1d C54_default_level_1d C54_reads_2d C54_node_separable C54_node_nonseparable C54_default_level_separable C54_default_level_nonseparable C54_short_signal_errors ex_C54_C55_1d ex_C54_C55_2d","Hypotheses on the filters as in C39 (instance db2 over the reals); the letters h and v are swapped in the separable variant (see C44). C54_short_signal_errors: an axis shorter than the filter fails in three different ways.")
claim("C55","proved","C55_reconstruct_1d C55_missing_leaf_1d C55_round_trip_1d C55_reconstruct_2d C55_missing_leaf_2d C55_round_trip_2d ex_C54_C55_1d ex_C54_C55_2d","")
claim("C56","partial","C56_reuse_1d_partial C56_reuse_2d_partial C56_dtype_refuted_1d C56_dtype_refuted_2d","Proved for histories on data of one dtype and device; refuted otherwise: the cached matrices keep the first dtype and reading raises RuntimeError.")
claim("C57","proved","C57_levels_compose C57_levels_split ex_C57 ex_C57_fs","wavedec3: both level counts positive (zero levels are C17).")
claim("C58","proved","C58_packet_wavedec_1d C58_packet_wavedec_2d ex_C58 ex_C58_2d","Padding modes, even filter banks; the boundary-mode packets are C54.")
claim("C59","proved","C59_analysis_linear C59_synthesis_linear ex_C59","1d synthesis is C05. wavedec3 with at least one level; fswavedec with the default level on non-empty axes.")
claim("C60","proved","C60_waverec2_rejects_inconsistent C60_waverec3_rejects_inconsistent C60_waverec2_bad_detail_raises C60_waverec2_wrong_level_raises C60_waverec3_bad_level_raises C60_accepted C60_extra_detail_refuted C60_fswaverec_crops_refuted ex_C60","No assumption on the container. Findings: a fourth detail is silently dropped for a single image; fswaverec2/3 crop a too large approximation.")
claim("C61","proved","C61_analysis_fibrewise C61_synthesis_fibrewise ex_C61","1d synthesis is C06.")
claim("C62","proved","C62_axes_order ex_C62","Analysis functions.")
claim("C63","proved","C63_constant_axis_no_detail C63_zero_mode_refuted ex_C63","")
claim("C64","proved","C64_energy_2d C64_energy_2d_nonseparable C64_energy_3d ex_C64","Hypotheses on the filters as in C39 (instance db2 over the reals). 1d is C40_energy.")
claim("C65","proved","C65_onto_1d C65_onto_2d C65_onto_2d_nonseparable C65_onto_3d ex_C65","Fresh objects; at least one level; every level at least as long as the filters; non-empty batch in 2d.")
claim("C66","proved","C66_swt C66_iswt C66_packets_1d C66_packets_2d C66_matrix_1d C66_matrix_2d C66_matrix_2d_nonseparable C66_matrix_3d C66_matrix_rec_1d C66_matrix_rec_2d C66_matrix_rec_2d_nonseparable C66_matrix_rec_3d C66_cwt C66_boundary_packets_1d C66_boundary_packets_2d ex_C66 ex_C66_matrix ex_C66_cwt","Packets: stated on the value of a node, which is what every read returns (C26). Reconstruction objects: containers of the sizes of a J-level transform.")

claim("C67","proved","C67_nonnegative C67_fresh C67_grid C67_zero_free C67_values C67_conjugate C67_nan C67_shannon_zero C67_cwt C67_cwt_grid C67_other_device ex_C67","Over the exact reals and complex numbers; nan is modelled as an absent value. The value theorem needs a nonzero bandwidth parameter and, for Shannon wavelets, symmetric bounds (pywt's defaults); C67_nan and C67_shannon_zero show what happens otherwise.")

claim("C68","proved","C68_local C68_wavedec_1d ex_C68","Even filter lengths. wavedec3 with at least one level; fswavedec with the default level on non-empty axes.")
claim("C69","proved","C69_boundary_1d C69_boundary_2d C69_boundary_3d C69_padded_1d C69_padded_2d C69_padded_3d C69_padded_signal ex_C69","Hypotheses on the filters as in C39 (instance db2 over the reals); fresh objects.")

claim("C70","proved","C70_swt C70_iswt C70_matrix_1d C70_matrix_2d C70_matrix_2d_nonseparable C70_matrix_3d C70_matrix_rec_1d C70_matrix_rec_2d C70_matrix_rec_2d_nonseparable C70_matrix_rec_3d C70_packets_1d C70_packets_2d C70_boundary_packets_1d C70_boundary_packets_2d C70_cwt ex_C70 ex_C70_matrix","Packets: stated on the value of a node, which is what every read returns (C26, C54). Reconstruction objects: containers of the sizes of a J-level transform; iswt: lengths divisible by 2^(J-1) or L = 2, where it is the inverse formula (C24).")

claim("C71","proved","C71_swt C71_matrix_1d C71_matrix_1d_corner C71_matrix_2d C71_matrix_2d_nonseparable C71_matrix_3d ex_C71_swt ex_C71_matrix ex_C71_corner","Fresh objects; filters as in C39 for the boundary transforms.")
claim("C72","proved","C72_packets_wavedec_1d C72_packets_wavedec_2d ex_C72_C73_packets","Filters as in C39; packet objects used with data of one dtype and device (C56). 1d with at least one level computed.")
claim("C73","proved","C73_energy_1d C73_energy_2d C73_energy_2d_nonseparable C73_energy_3d C73_packets_1d C73_packets_2d ex_C73 ex_C72_C73_packets","Filters as in C39; fresh transform objects; packet objects used with data of one dtype and device.")

claim("C74","proved","C74_waverec3 C74_fswaverec C74_matrix_3d ex_C74 ex_C74_matrix","Whenever the first call succeeds; calls that raise may raise a different exception.")
claim("C75","proved","C75_swt_energy ex_C75","Orthogonal filters; sizes divisible by 2^(J-1) or filters of length 2, as in C23.")
claim("C76","proved","C76_axis_by_axis C76_wavedec2 C76_synthesis ex_C76 ex_C76_rec","One level (several levels follow with C57). Filters of even length for the analysis. For the synthesis the coefficients of the level have one shape and at least one sample per transformed axis, as every analysis produces them.")
claim("C77","proved","C77_read_1d C77_read_2d C77_read_boundary_1d C77_read_boundary_2d C77_who_changes C77_replaced C77_orphan ex_C77","Exact version of C30. Keys that are stored or not longer than the maximum level (longer ones raise, C27). Boundary mode: filters as in C39, histories with data of one dtype and device (C56).")
claim("C78","proved","C78_vanishing_moments C78_wavedec_1d ex_C78_moments ex_C78 ex_C78_db2","Filters of even length; accepted calls; wavedec3 with at least one level, fswavedec with a non-empty tensor when the level is None (findings).")
claim("C79","proved","C79_synthesis_local C79_waverec_1d ex_C79_1d ex_C79_2d","Coefficients that fit together as in C59; waverec for 1d tensors (batches by C06).")
claim("C80","proved","C80_cwt_local ex_C80","Exact arithmetic with roots of unity as in C46.")
claim("C81","proved","C81_inner_products C81_energy ex_C81","Rings in which a+a=b+b implies a=b. Accepted calls; wavedec3 with at least one level, fswavedec with a non-empty tensor when the level is None (findings). Bilinear: no complex conjugation.")
claim("C82","proved","C82_adjoint ex_C82","Any commutative ring, any filters of even length (no perfect reconstruction assumed). Same corners as C81.")
claim("C83","proved","C83_flip ex_C83 ex_C83_needed","Accepted calls; same corners as C81. Stated for analysis only.")
claim("C84","proved","C84_shift C84_swt ex_C84 ex_C84_swt","One level: from the second level on the library extends the already extended approximation, so the transform is no longer circular.")
claim("C85","proved","C85_pythagoras C85_least_squares ex_C85_pythagoras ex_C85_least_squares","The identity in every ring in which a+a=b+b implies a=b; optimality, uniqueness and the energy bound over the real numbers. Same corners as C81.")
claim("C86","proved","C86_iterated_filters C86_packet_1d C86_packet_2d ex_C86 ex_C86_filter ex_C86_packet","The filters need no property besides their even length. Two corners are outside, as in C81: wavedec3 at level 0 (C64) and the level-0 default of the separable transforms on an empty signal.")
claim("C87","proved","C87_iterated_filters C87_iswt_shift C87_decimated ex_C87 ex_C87_values ex_C87_shift ex_C87_decimated","Same condition on level and length as C23 and C24 (2^(levels-1) divides n, or Haar length 2); outside it circular padding wraps wrongly (C25).")
more("C10","C10_single_tap_matrices C10_single_tap ex_C10_single_tap","MatrixWavedec also rejects filters of a single tap.")
more("C44","C44_packet_flag C44_packet_flag_default ex_C44_packet_flag","For the padded packets the deviation is stated exactly: the flag separable exchanges the letters h and v in every path and does nothing else.")
