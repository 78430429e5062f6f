# Print Assumptions for every theorem of MANIFEST.json

Generated by tools/assumptions.py from a built tree.

## Closed under the global context (380 theorems)

`Props1.C01_perfect_reconstruction`, `Props1.C01_C02_reconstruction`, `Props1.mode_none_is_reflect`, `Props1.C02_length_and_trailing_sample`, `Props1.C03_wavedec_is_dwt`, `Props1.C04_number_and_sizes`, `Props1.C05_wavedec_linear`, `Props1.C05_waverec_linear`, `Props1.C06_wavedec_fibrewise`, `Props1.C06_waverec_fibrewise`, `Props1.C07_default_level`, `Props2.C07_default_level_2d`, `PropsSep.C07_default_level_separable`, `Props1.C08_which_levels`, `Props2.C08_which_levels_2d`, `Props2.C08_which_levels_3d`, `PropsSep.C08_which_levels_separable`, `Props1.C09_symmetric_padding`, `Props1.C09_empty_axis_diverges`, `Tags.C10_value_error`, `Tags.C10_no_result`, `Tags.C10_unknown_mode`, `Props1.C10_unknown_mode_zero_level_refuted`, `PropsTap.C10_single_tap_matrices`, `PropsTap.C10_single_tap`, `PropsTap.ex_C10_single_tap`, `Props1.C11_waverec_rejects_inconsistent`, `Props1.C11_accepted`, `Props1.C11_batch_shape_not_checked_refuted`, `Props1.C12_pre_post_inverse`, `Props2.C13_perfect_reconstruction_2d`, `Props2.C14_wavedec2_is_dwt2`, `Props2.C15_perfect_reconstruction_3d`, `Props2.C16_wavedec3_keys`, `Props1.C17_zero_level`, `Props2.C17_zero_level_2d`, `PropsSep.C17_zero_level_separable`, `Props2.C17_wavedec3_zero_level_refuted`, `PropsSep.C18_separable_2d`, `PropsSep.C18_separable_3d`, `PropsSep.C18_synthesis_2d`, `PropsSep.C18_synthesis_3d`, `PropsSep.C19_perfect_reconstruction_separable`, `PropsSep.C20_fswaverec_containers`, `PropsSep.C20_fswaverec2_mutates_refuted`, `PropsMatN2.C20_MatrixWaverec3_containers`, `ExMatN.C20_C21_MatrixWaverec3_refuted`, `PropsSep.C21_fswaverec_repeatable`, `PropsMat1.C42_waverec`, `PropsMatN2.C42_waverec2`, `PropsMatN2.C42_waverec3`, `PropsSwt.C22_swt_shapes`, `PropsSwt.C23_swt_formula`, `PropsSwt.C23_coefficient`, `PropsSwt.C23_default_level`, `PropsSwt.C23_shift`, `PropsSwt.C23_odd_length_refuted`, `PropsSwt.C24_iswt_swt`, `PropsSwt.C24_default_level`, `PropsSwt.C24_iswt_formula`, `PropsSwt.C24_odd_length_refuted`, `PropsSwt.C25_circular_pad_partial`, `PropsSwt.C25_when_ok`, `PropsSwt.C25_circular_pad_refuted`, `SwtExact.C25_exact`, `PropsPk.C26_packet_reads_1d`, `PropsPk.C26_packet_reads_2d`, `PropsPk.C26_node_formula_1d`, `PropsPk.C26_node_formula_2d`, `PropsPk.C26_default_level_1d`, `PropsPk.C26_default_level_2d`, `PropsPk.C27_no_data`, `PropsPk.C27_too_long`, `PropsPk.C27_foreign_letter`, `PropsPk.C27_foreign_1d`, `PropsPk.C27_foreign_2d`, `PropsPk.C28_reconstruct_1d`, `PropsPk.C28_reconstruct_2d`, `PropsPk.C28_initialize_reconstruct_1d`, `PropsPk.C28_initialize_reconstruct_2d`, `PropsPk.C28_round_trip_1d`, `PropsPk.C28_round_trip_2d`, `PropsPk.C28_no_levels`, `PropsPk.C29_missing_leaf_1d`, `PropsPk.C29_missing_leaf_2d`, `PropsPk.C29_missing_leaf_key_error_1d`, `PropsPk.C29_missing_leaf_key_error_2d`, `PropsPk.C29_only_leaves_1d_partial`, `PropsPk.C29_only_leaves_2d_partial`, `PropsPk.C29_only_leaves_refuted`, `PropsPk.C30_assigned_persists_partial`, `PropsPk.C30_assigned_persists_refuted`, `Orders.C31_orders_1d`, `Orders.C31_unknown_order`, `Orders.C32_natural_2d`, `Orders.C32_freq_2d`, `Orders.C32_level_zero_refuted`, `Orders.C32_unknown_order`, `PropsSparse.C33_sparse_kron`, `PropsSparse.C33_dtype`, `PropsSparse.C33_other_device`, `SparseDense.C33_dense_kron`, `PropsSparse.C34_conv_matrix`, `PropsSparse.C34_strided_conv_matrix`, `PropsSparse.C34_unknown_mode`, `PropsSparse.C35_conv2d_matrix`, `PropsSparse.C35_strided_conv2d_matrix`, `PropsSparse.C35_narrow_rejected`, `SparseDense.C35_fully_sparse`, `SparseDense.ex_fully_sparse`, `PropsSparse.C36_replace_row`, `PropsSparse.C36_replace_row_rejects`, `PropsSparse.C36_replace_row_square_only`, `PropsSparse.C36_cat_identity`, `PropsSparse.C36_cat_identity_rejects`, `PropsSparse.C37_batch_mm`, `PropsSparse.C37_batch_mm_rejects`, `PropsSparse.C37_batch_dim_mm`, `PropsOrth.C38_gramschmidt`, `PropsOrth.C38_qr`, `PropsOrth.C38_qr_last_row`, `PropsOrth.C38_other_method`, `PropsOrth.C39_raw_matrix`, `PropsOrth.C39_boundary_matrices`, `PropsOrth.boundary_independent_2`, `PropsOrth.boundary_independent_46`, `PropsMatNon.C39_boundary_matrices_2d`, `PropsMat1.C40_coefficients`, `PropsMat1.C40_reconstruction`, `PropsMat1.C40_perfect_reconstruction`, `PropsMat1.C40_energy`, `PropsMat1.C40_accepts`, `Mat1Op.C41_fwt_operator`, `Mat1Op.C41_ifwt_operator`, `Mat1Op.C41_no_levels`, `PropsMat1.C42_wavedec`, `PropsMat1.C42_wavedec_default`, `ExMat1.C42_level_none_refuted`, `ExMat1.C42_short_signal_refuted`, `ExMat1.C42_dtype_refuted`, `ExMat1.C42_waverec_dtype_refuted`, `PropsMatN2.C42_wavedec2`, `PropsMatN2.C42_wavedec3`, `PropsMatN2.C42_wavedec2_default`, `PropsMatN2.C42_wavedec3_default`, `ExMatN.C42_level_none_2d_refuted`, `ExMatN.C42_dtype_2d_refuted`, `PropsMatNon.C42_nonseparable_wavedec2`, `PropsMatNon.C42_nonseparable_waverec2`, `PropsMatNon.C42_nonseparable_wavedec2_default`, `PropsMatN.C43_coefficients`, `PropsMatN.C43_reconstruction`, `PropsMatN.C43_perfect_reconstruction`, `PropsMatN.C43_accepts`, `PropsMatN.C43_empty_batch`, `PropsMatNon.C43_nonseparable_coefficients`, `PropsMatNon.C43_nonseparable_accepts`, `PropsMatNon.C43_nonseparable_reconstruction`, `PropsMatNon.C43_nonseparable_perfect_reconstruction`, `ExMatN.C44_matrix_separable_refuted`, `ExMatN.C44_matrix_nonseparable_example`, `ExMatN.C44_packet_separable_refuted`, `PropsMatN.C45_coefficients`, `PropsMatN.C45_reconstruction`, `PropsMatN.C45_perfect_reconstruction`, `PropsMatN.C45_accepts`, `ExMatN.C45_zero_level_refuted`, `PropsCwt.C46_cwt`, `PropsCwt.C46_too_small`, `PropsCwt.C46_biorthogonal`, `PropsCwt.C46_integrate`, `PropsCwt.C46_real`, `PropsCwt.C47_rows_independent`, `PropsCwt.C47_accepted`, `PropsLearn.C48_pr_loss`, `PropsLearn.C48_alias_loss`, `PropsLearn.C48_product_filter_loss`, `PropsLearn.C48_zero_loss_invertible`, `PropsLearn.C48_pf_alias_loss`, `PropsLearn.ex_C48`, `PropsLearn.C49_filter_bank`, `PropsLearn.C49_low_pass`, `PropsLearn.C49_soft_wavelet_loss`, `PropsLearn.C49_soft_loss_low_pass`, `PropsUtil.C50_one_pass`, `PropsUtil.C50_identity`, `PropsUtil.C50_composition`, `PropsUtil.C50_other_rejected`, `PropsUtil.C50_flatten`, `PropsUtil.C50_four_tuple_refuted`, `PropsUtil.ex_C50`, `PropsUtil.C51_both_names`, `PropsUtil.C51_same_as_new_names`, `PropsUtil.C51_transparent`, `PropsUtil.ex_C51`, `Tags.C52_analysis`, `Tags.C52_synthesis`, `PropsSwt.C52_swt`, `PropsTagMat.C52_iswt`, `PropsTagMat.C52_fswavedec`, `PropsTagMat.C52_fswaverec`, `PropsTagMat.C52_MatrixWavedec`, `PropsTagMat.C52_MatrixWaverec`, `PropsTagMat.C52_MatrixWavedec2`, `PropsTagMat.C52_MatrixWaverec2`, `PropsTagMat.C52_MatrixWavedec3`, `PropsTagMat.C52_MatrixWaverec3`, `MatNOp.C53_fwt_operator`, `MatNOp.C53_ifwt_operator`, `MatNOp.C53_padded`, `MatNOp.C53_separable`, `MatNOp.C53_not_called`, `PropsPkM.C54_reads_1d`, `PropsPkM.C54_node_1d`, `PropsPkM.C54_default_level_1d`, `PropsPkM2.C54_reads_2d`, `PropsPkM2.C54_node_separable`, `PropsPkM2.C54_node_nonseparable`, `PropsPkM2.C54_default_level_separable`, `PropsPkM2.C54_default_level_nonseparable`, `ExPkM.C54_short_signal_errors`, `PropsPkM.C55_reconstruct_1d`, `PropsPkM.C55_missing_leaf_1d`, `PropsPkM.C55_round_trip_1d`, `PropsPkM2.C55_reconstruct_2d`, `PropsPkM2.C55_missing_leaf_2d`, `PropsPkM2.C55_round_trip_2d`, `PropsPkM.C56_reuse_1d_partial`, `PropsPkM2.C56_reuse_2d_partial`, `ExPkM.C56_dtype_refuted_1d`, `ExPkM.C56_dtype_refuted_2d`, `PropsLevels.C57_levels_compose`, `PropsLevels.C57_levels_split`, `PropsLevels.ex_C57`, `PropsLevels.ex_C57_fs`, `PropsPkDec.C58_packet_wavedec_1d`, `PropsPkDec.C58_packet_wavedec_2d`, `PropsPkDec.ex_C58`, `PropsPkDec.ex_C58_2d`, `PropsNd.C59_analysis_linear`, `PropsNd.C59_synthesis_linear`, `PropsRej.ex_C59`, `PropsRej.C60_waverec2_rejects_inconsistent`, `PropsRej.C60_waverec3_rejects_inconsistent`, `PropsRej.C60_waverec2_bad_detail_raises`, `PropsRej.C60_waverec2_wrong_level_raises`, `PropsRej.C60_waverec3_bad_level_raises`, `PropsRej.C60_accepted`, `PropsRej.C60_extra_detail_refuted`, `PropsRej.C60_fswaverec_crops_refuted`, `PropsRej.ex_C60`, `PropsNd.C61_analysis_fibrewise`, `PropsNd.C61_synthesis_fibrewise`, `PropsRej.ex_C61`, `PropsAxes.C62_axes_order`, `PropsAxes.ex_C62`, `PropsConst.C63_constant_axis_no_detail`, `PropsConst.C63_zero_mode_refuted`, `PropsConst.ex_C63`, `EnergyN.C64_energy_2d`, `EnergyN.C64_energy_2d_nonseparable`, `EnergyN.C64_energy_3d`, `PropsSurj.C65_onto_1d`, `PropsSurj.C65_onto_2d`, `PropsSurj.C65_onto_2d_nonseparable`, `PropsSurj.C65_onto_3d`, `PropsLin.C66_swt`, `PropsLin.C66_iswt`, `PropsLin.C66_packets_1d`, `PropsLin.C66_packets_2d`, `PropsLin.C66_matrix_1d`, `PropsLin.C66_matrix_2d`, `PropsLin.C66_matrix_2d_nonseparable`, `PropsLin.C66_matrix_3d`, `PropsLin.C66_matrix_rec_1d`, `PropsLin.C66_matrix_rec_2d`, `PropsLin.C66_matrix_rec_2d_nonseparable`, `PropsLin.C66_matrix_rec_3d`, `PropsLin.C66_cwt`, `PropsBatch2.C66_boundary_packets_1d`, `PropsBatch2.C66_boundary_packets_2d`, `ExLin.ex_C66`, `PropsLocal.C68_local`, `PropsLocal.C68_wavedec_1d`, `PropsLocal.ex_C68`, `PropsLocalM.C69_boundary_1d`, `PropsLocalM.C69_boundary_2d`, `PropsLocalM.C69_boundary_3d`, `PropsLocalM.C69_padded_1d`, `PropsLocalM.C69_padded_2d`, `PropsLocalM.C69_padded_3d`, `PropsLocalM.C69_padded_signal`, `PropsBatch.C70_swt`, `PropsBatch.C70_iswt`, `PropsBatch.C70_matrix_1d`, `PropsBatch.C70_matrix_2d`, `PropsBatch.C70_matrix_2d_nonseparable`, `PropsBatch.C70_matrix_3d`, `PropsBatch.C70_matrix_rec_1d`, `PropsBatch.C70_matrix_rec_2d`, `PropsBatch.C70_matrix_rec_2d_nonseparable`, `PropsBatch.C70_matrix_rec_3d`, `PropsBatch.C70_packets_1d`, `PropsBatch.C70_packets_2d`, `PropsBatch2.C70_boundary_packets_1d`, `PropsBatch2.C70_boundary_packets_2d`, `PropsBatch2.C70_cwt`, `ExLin.ex_C70`, `PropsNest.C71_swt`, `PropsNest.C71_matrix_1d`, `PropsNest.C71_matrix_1d_corner`, `PropsNest.C71_matrix_2d`, `PropsNest.C71_matrix_2d_nonseparable`, `PropsNest.C71_matrix_3d`, `ExMore.ex_C71_swt`, `PropsPkE.C72_packets_wavedec_1d`, `PropsPkE.C72_packets_wavedec_2d`, `PropsEnergyZ.C73_energy_1d`, `PropsEnergyZ.C73_energy_2d`, `PropsEnergyZ.C73_energy_2d_nonseparable`, `PropsEnergyZ.C73_energy_3d`, `PropsPkE.C73_packets_1d`, `PropsPkE.C73_packets_2d`, `PropsDict.C74_waverec3`, `PropsDict.C74_fswaverec`, `PropsDict.C74_matrix_3d`, `ExMore.ex_C74`, `PropsSwtE.C75_swt_energy`, `PropsAxisWise.C76_axis_by_axis`, `PropsAxisWise.C76_wavedec2`, `PropsAxisRec.C76_synthesis`, `ExMore.ex_C76`, `ExMore.ex_C76_rec`, `PropsPkRead.C77_read_1d`, `PropsPkRead.C77_read_2d`, `PropsPkM.C77_read_boundary_1d`, `PropsPkM2.C77_read_boundary_2d`, `PropsPkRead.C77_who_changes`, `PropsPkRead.C77_replaced`, `PropsPkRead.C77_orphan`, `ExMore.ex_C77`, `PropsMoments.C78_vanishing_moments`, `PropsMoments.C78_wavedec_1d`, `PropsMoments.ex_C78_moments`, `PropsMoments.ex_C78`, `PropsLocalRec.C79_synthesis_local`, `PropsLocalRec.C79_waverec_1d`, `PropsLocalRec.ex_C79_1d`, `PropsLocalRec.ex_C79_2d`, `PropsCwtLocal.C80_cwt_local`, `PropsAdjoint.C81_inner_products`, `PropsAdjoint.C81_energy`, `ExAdjoint.ex_C81`, `PropsAdjoint.C82_adjoint`, `ExAdjoint.ex_C82`, `PropsFlip.C83_flip`, `ExFlip.ex_C83`, `ExFlip.ex_C83_needed`, `PropsRoll.C84_shift`, `PropsRoll.C84_swt`, `ExFlip.ex_C84`, `ExFlip.ex_C84_swt`, `PropsBest.C85_pythagoras`, `ExBest.ex_C85_pythagoras`, `PropsIter.C86_iterated_filters`, `PropsIterPk.C86_packet_1d`, `PropsIterPk.C86_packet_2d`, `ExIter.ex_C86`, `ExIter.ex_C86_filter`, `ExIter.ex_C86_packet`, `PropsSwtIter.C87_iterated_filters`, `PropsSwtIter.C87_iswt_shift`, `PropsSwtIter.C87_decimated`, `ExSwtIter.ex_C87`, `ExSwtIter.ex_C87_values`, `ExSwtIter.ex_C87_shift`, `ExSwtIter.ex_C87_decimated`, `PropsPkFlag.C44_packet_flag`, `PropsPkFlag.C44_packet_flag_default`, `PropsPkFlag.ex_C44_packet_flag`

## Axioms: ClassicalDedekindReals.sig_forall_dec, FunctionalExtensionality.functional_extensionality_dep (2 theorems)

`PropsCwtL.C67_nonnegative`, `PropsBest.C85_least_squares`

## Axioms: ClassicalDedekindReals.sig_forall_dec, ClassicalDedekindReals.sig_not_dec, FunctionalExtensionality.functional_extensionality_dep (33 theorems)

`ExReal.C39_independence_not_automatic`, `ExCwt.ex_C46`, `ExCwt.ex_C46_real`, `PropsLearn.ex_C49`, `ExMatN.ex_C53`, `ExPkM.ex_C54_C55_1d`, `ExPkM.ex_C54_C55_2d`, `ExSurj.ex_C64`, `ExSurj.ex_C65`, `ExLin.ex_C66_matrix`, `ExLin.ex_C66_cwt`, `PropsCwtL.C67_fresh`, `PropsCwtL.C67_grid`, `PropsCwtL.C67_zero_free`, `PropsCwtL.C67_values`, `PropsCwtL.C67_conjugate`, `PropsCwtL.C67_nan`, `PropsCwtL.C67_shannon_zero`, `PropsCwtL.C67_cwt`, `PropsCwtL.C67_cwt_grid`, `PropsCwtL.C67_other_device`, `PropsCwtL.ex_C67`, `ExLocalM.ex_C69`, `ExLin.ex_C70_matrix`, `ExMore.ex_C71_matrix`, `ExMore.ex_C71_corner`, `ExMore.ex_C72_C73_packets`, `ExMore.ex_C73`, `ExMore.ex_C74_matrix`, `ExMore.ex_C75`, `ExMore.ex_C78_db2`, `ExCwtLocal.ex_C80`, `ExBest.ex_C85_least_squares`
