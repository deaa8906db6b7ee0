{
 "claims": [
  {
   "property": "C01",
   "status": "proved",
   "theorems": [
    "C01_mult_is_matrix_vector_product",
    "C01_mult_exact_order",
    "C01_mult_rejects_wrong_sizes"
   ],
   "note": ""
  },
  {
   "property": "C02",
   "status": "proved",
   "theorems": [
    "C02_multAT_is_transpose_product",
    "C02_multAT_exact_order",
    "C02_multAT_rejects_wrong_sizes"
   ],
   "note": ""
  },
  {
   "property": "C03",
   "status": "proved",
   "theorems": [
    "C03_transpose_entries",
    "C03_transpose_matrix",
    "C03_transpose_twice"
   ],
   "note": ""
  },
  {
   "property": "C04",
   "status": "proved",
   "theorems": [
    "C04_product_is_matrix_product",
    "C04_product_is_safe",
    "C04_product_is_composition"
   ],
   "note": ""
  },
  {
   "property": "C05",
   "status": "proved",
   "theorems": [
    "C05_accepted_histories",
    "C05_coo_assembly",
    "C05_coo_assembly_exact",
    "C05_entries_inside",
    "C05_assembled_object"
   ],
   "note": ""
  },
  {
   "property": "C06",
   "status": "proved",
   "theorems": [
    "C06_dense_views_agree",
    "C06_dense_view_is_sum"
   ],
   "note": ""
  },
  {
   "property": "C07",
   "status": "partial",
   "theorems": [
    "C07_size_deduction_partial",
    "C07_declared_size_reported",
    "C07_empty_size_refuted",
    "C07_reported_size_refuted"
   ],
   "note": "full statement refuted by C07_empty_size_refuted (empty gives 1 x 1) and C07_reported_size_refuted (Rows() and Cols() stay 0 without a size); proved part: produced size for every history, reported size when declared"
  },
  {
   "property": "C08",
   "status": "partial",
   "theorems": [
    "C08_coo_mult_partial",
    "C08_coo_multAT_partial",
    "C08_coo_mult_exact",
    "C08_multAT_rectangular_refuted",
    "C08_mult_no_size_refuted"
   ],
   "note": "Mult proved for every declared size; refuted for deduced sizes (C08_mult_no_size_refuted) and for MultAT of every rectangular matrix (C08_multAT_rectangular_refuted: the size assertions are those of Mult); MultAT proved for square matrices"
  },
  {
   "property": "C09",
   "status": "partial",
   "theorems": [
    "C09_accepted_histories",
    "C09_accepted_histories_no_size",
    "C09_lil_assembly_partial",
    "C09_lil_set_size_partial",
    "C09_deduced_size_refuted",
    "C09_larger_size_refuted",
    "C09_set_size_first_refuted"
   ],
   "note": "proved for a size given at construction (any history, ToSparse calls in between) and for SetSize to exactly the reached rows; refuted for every deduced size (C09_deduced_size_refuted: one row too many, last row pointer 0, invalid CSR), for SetSize to more rows (C09_larger_size_refuted) and for SetSize before Add (C09_set_size_first_refuted: out of bounds)"
  },
  {
   "property": "C10",
   "status": "partial",
   "theorems": [
    "C10_lil_to_dense",
    "C10_lil_mult",
    "C10_lil_multAT_partial",
    "C10_assembled_object",
    "C10_multAT_rectangular_refuted"
   ],
   "note": "ToDense and Mult proved for every shape; MultAT rejects every rectangular matrix (C10_multAT_rectangular_refuted), proved for square ones"
  },
  {
   "property": "C11",
   "status": "partial",
   "theorems": [
    "C11_coo_eliminate_zeros_partial",
    "C11_coo_eliminate_zeros_refuted",
    "C11_lil_eliminate_zeros_partial",
    "C11_lil_eliminate_zeros_refuted",
    "C11_csr_eliminate_zeros_tolerance",
    "C11_csr_eliminate_zeros"
   ],
   "note": "SparseMatrix proved in full; CooMatrix and LilMatrix keep stored zeros with the default tolerance (C11_coo_eliminate_zeros_refuted, C11_lil_eliminate_zeros_refuted); the _partial theorems say exactly what they remove"
  },
  {
   "property": "C12",
   "status": "proved",
   "theorems": [
    "C12_sort_indices",
    "C12_sort_indices_matrix"
   ],
   "note": ""
  },
  {
   "property": "C13",
   "status": "partial",
   "theorems": [
    "C13_submatrix_partial",
    "C13_repeated_columns",
    "C13_submatrix_new",
    "C13_submatrix_refuted"
   ],
   "note": "proved for column lists without repetition; for repeated columns the statement is false (C13_submatrix_refuted) and C13_repeated_columns says exactly what is returned"
  },
  {
   "property": "C14",
   "status": "partial",
   "theorems": [
    "C14_dense_mult_agrees_partial",
    "C14_to_dense_partial",
    "C14_to_dense_into_partial",
    "C14_transpose_dense_partial",
    "C14_to_dense_last_value",
    "C14_to_dense_refuted"
   ],
   "note": "proved for matrices without repeated coordinates; full statement refuted by C14_to_dense_refuted (a repeated coordinate: ToDense keeps the last value, Mult adds); C14_to_dense_last_value says what happens for every matrix"
  },
  {
   "property": "C15",
   "status": "proved",
   "theorems": [
    "C15_scaling_entries",
    "C15_scalar_multiple",
    "C15_scale_rows",
    "C15_scale_cols",
    "C15_divide",
    "C15_inverse_scale_rows",
    "C15_inverse_scale_cols",
    "C15_scale_rows_by_diagonal_matrix",
    "C15_scale_cols_by_diagonal_matrix"
   ],
   "note": ""
  },
  {
   "property": "C16",
   "status": "partial",
   "theorems": [
    "C16_eliminate_row",
    "C16_eliminate_col",
    "C16_eliminate_col_marker",
    "C16_eliminate_row_col_partial",
    "C16_eliminate_row_col_marker_partial",
    "C16_elimination_entries",
    "C16_eliminate_row_col_diagonal_refuted"
   ],
   "note": "EliminateRow and EliminateCol proved in full; EliminateRowCol gives diagonal 1 only when the diagonal entry is stored exactly once (C16_eliminate_row_col_diagonal_refuted)"
  },
  {
   "property": "C17",
   "status": "proved",
   "theorems": [
    "C17_elimination_keeps_residual"
   ],
   "note": ""
  },
  {
   "property": "C18",
   "status": "partial",
   "theorems": [
    "C18_get_diag_partial",
    "C18_add_diag_partial",
    "C18_add_diag_value_partial",
    "C18_diagonal_refuted"
   ],
   "note": "proved for matrices without repeated coordinates; refuted for repeated diagonal entries by C18_diagonal_refuted"
  },
  {
   "property": "C19",
   "status": "proved",
   "theorems": [
    "C19_permute_cols"
   ],
   "note": ""
  },
  {
   "property": "C20",
   "status": "proved",
   "theorems": [
    "C20_mult_dense",
    "C20_multAT_dense",
    "C20_multCT_dense"
   ],
   "note": ""
  },
  {
   "property": "C21",
   "status": "partial",
   "theorems": [
    "C21_block_matrix_adjoint",
    "C21_operator_adjoint",
    "C21_coo_adjoint_partial",
    "C21_dense_adjoint",
    "C21_lil_adjoint_partial",
    "C21_sparse_adjoint"
   ],
   "note": "SparseMatrix, DenseMatrix, BlockMatrix, BlockOperator and any operator that represents a matrix proved; CooMatrix and LilMatrix for square matrices (MultAT rejects the others: C08_multAT_rectangular_refuted, C10_multAT_rectangular_refuted)"
  },
  {
   "property": "C22",
   "status": "proved",
   "theorems": [
    "C22_csr_valid_history",
    "C22_csr_valid_history_moves"
   ],
   "note": "histories over any number of objects; a moved-from object is the one exception and is stated in C22_csr_valid_history_moves"
  },
  {
   "property": "C23",
   "status": "partial",
   "theorems": [
    "C23_constructor_checks",
    "C23_constructor_validates_refuted",
    "C23_constructor_validates_partial"
   ],
   "note": "full statement refuted by C23_constructor_validates_refuted (row pointers unchecked); C23_constructor_checks is the exact set of accepted inputs; proved part: C23_constructor_validates_partial"
  },
  {
   "property": "C24",
   "status": "proved",
   "theorems": [
    "C24_set_element",
    "C24_get_element",
    "C24_set_col",
    "C24_set_row",
    "C24_get_col",
    "C24_get_row",
    "C24_set_get_col",
    "C24_set_get_row",
    "C24_col_view"
   ],
   "note": ""
  },
  {
   "property": "C25",
   "status": "proved",
   "theorems": [
    "C25_mult",
    "C25_multAT",
    "C25_mult_exact",
    "C25_multAT_exact",
    "C25_mult_new",
    "C25_multAT_new"
   ],
   "note": ""
  },
  {
   "property": "C26",
   "status": "proved",
   "theorems": [
    "C26_transpose",
    "C26_transpose_into",
    "C26_transpose_involution",
    "C26_transpose_in_place_differs"
   ],
   "note": "the copying forms; C26_transpose_in_place_differs records that A.Transpose(A) is not a transpose"
  },
  {
   "property": "C27",
   "status": "partial",
   "theorems": [
    "C27_get_submatrix_partial",
    "C27_get_submatrix_lists",
    "C27_set_submatrix_partial",
    "C27_set_submatrix_transpose_partial",
    "C27_set_then_get_partial",
    "C27_add_submatrix",
    "C27_empty_window_refuted",
    "C27_get_rows_partial",
    "C27_get_cols_partial",
    "C27_get_new_partial",
    "C27_get_lists_new",
    "C27_set_rows_partial",
    "C27_set_cols_partial",
    "C27_set_at_partial",
    "C27_set_transpose_at_partial",
    "C27_misfit"
   ],
   "note": "proved for every window with start inside the matrix; the full statement is refuted by C27_empty_window_refuted (an empty window at the end is rejected); list versions proved in full"
  },
  {
   "property": "C28",
   "status": "partial",
   "theorems": [
    "C28_hstack_partial",
    "C28_hstack_no_rows_refuted"
   ],
   "note": "proved for matrices with at least one row (or no columns); refuted for matrices without rows but with columns: C28_hstack_no_rows_refuted"
  },
  {
   "property": "C29",
   "status": "proved",
   "theorems": [
    "C29_add_sub",
    "C29_scale_div",
    "C29_scale_rows",
    "C29_scale_cols",
    "C29_inverse_scale_rows",
    "C29_inverse_scale_cols"
   ],
   "note": ""
  },
  {
   "property": "C30",
   "status": "partial",
   "theorems": [
    "C30_element_write",
    "C30_view_fill",
    "C30_view_assign",
    "C30_view_assign_behind_refuted",
    "C30_vectors_are_lists",
    "C30_vectors_independent",
    "C30_assign_own_part_refuted"
   ],
   "note": "write law, view assignment and the list semantics of whole programs proved; refuted: assigning a view that starts inside its source (C30_view_assign_behind_refuted, outside the contract of std::copy) and assigning to a Vector a proper tail of itself (C30_assign_own_part_refuted)"
  },
  {
   "property": "C31",
   "status": "proved",
   "theorems": [
    "C31_sum_in_order",
    "C31_sum",
    "C31_inner_product",
    "C31_inner_product_sizes",
    "C31_inner_symmetric",
    "C31_inner_linear",
    "C31_max",
    "C31_min",
    "C31_abs_max",
    "C31_abs_min",
    "C31_extrema_of_nothing",
    "C31_mean"
   ],
   "note": ""
  },
  {
   "property": "C32",
   "status": "partial",
   "theorems": [
    "C32_admitted_aliasing",
    "C32_add_scaled_partial",
    "C32_sub_scaled_partial",
    "C32_set_scaled_partial",
    "C32_entrywise_partial",
    "C32_divide_partial",
    "C32_scalar_operators",
    "C32_linear_combination_partial",
    "C32_add_sub_partial",
    "C32_size_checks",
    "C32_overlap_refuted",
    "C32_output_is_read_refuted"
   ],
   "note": "proved for disjoint, identical and forward-overlapping arguments; refuted when the source starts before the target and reaches into it (C32_overlap_refuted), and Add(x,y,z) depends on the old contents of z for doubles (C32_output_is_read_refuted)"
  },
  {
   "property": "C33",
   "status": "partial",
   "theorems": [
    "C33_compares_within_tolerance",
    "C33_dense_compares_within_tolerance",
    "C33_reflexive_partial",
    "C33_symmetric_partial",
    "C33_exact_types_partial",
    "C33_transitive_refuted",
    "C33_distinguishes_refuted"
   ],
   "note": "reflexive and symmetric; equality for types whose values differ by more than the tolerance; for doubles not transitive (C33_transitive_refuted) and a NaN equals everything (C33_distinguishes_refuted)"
  },
  {
   "property": "C34",
   "status": "partial",
   "theorems": [
    "C34_blocks_cover",
    "C34_get_block",
    "C34_write_block",
    "C34_construct",
    "C34_construct_from_data_partial",
    "C34_data_size_unchecked_refuted",
    "C34_block_number_too_large",
    "C34_negative_block_number_refuted"
   ],
   "note": "proved for every BlockVector whose data has the size of the offsets; BlockVector(data, offsets) does not check the size (C34_data_size_unchecked_refuted) and negative block numbers are not refused (C34_negative_block_number_refuted)"
  },
  {
   "property": "C35",
   "status": "proved",
   "theorems": [
    "C35_block_mult",
    "C35_block_mult_is_combined",
    "C35_blocks_read_back"
   ],
   "note": ""
  },
  {
   "property": "C36",
   "status": "proved",
   "theorems": [
    "C36_block_multAT",
    "C36_block_multAT_is_combined"
   ],
   "note": ""
  },
  {
   "property": "C37",
   "status": "proved",
   "theorems": [
    "C37_combine",
    "C37_combine_rows",
    "C37_combine_values"
   ],
   "note": ""
  },
  {
   "property": "C38",
   "status": "partial",
   "theorems": [
    "C38_transpose_partial",
    "C38_transpose_copies_blocks_refuted",
    "C38_transpose_fails_refuted",
    "C38_transpose_wrong_refuted"
   ],
   "note": "full statement refuted: Transpose copies the blocks untransposed (C38_transpose_copies_blocks_refuted, C38_transpose_wrong_refuted) and fails for blocks that are not square or not set (C38_transpose_fails_refuted); proved part: symmetric blocks"
  },
  {
   "property": "C39",
   "status": "proved",
   "theorems": [
    "C39_mult_sums_blocks",
    "C39_multAT_sums_blocks",
    "C39_mult_history_independent",
    "C39_multAT_history_independent",
    "C39_block_operator_is_tiled_matrix",
    "C39_tiled_matrix",
    "C39_sparse_matrix_operator",
    "C39_block_matrix_operator"
   ],
   "note": ""
  },
  {
   "property": "C40",
   "status": "proved",
   "theorems": [
    "C40_pcg_pass_keeps_residual",
    "C40_pcg_ends_with_residual",
    "C40_pcg_returns_or_throws"
   ],
   "note": ""
  },
  {
   "property": "C41",
   "status": "proved",
   "theorems": [
    "C41_pcg_stopping_contract"
   ],
   "note": ""
  },
  {
   "property": "C42",
   "status": "partial",
   "theorems": [
    "C42_pcg_iterations_partial",
    "C42_minres_iterations_partial",
    "C42_pminres_iterations_partial",
    "C42_pcg_ignores_small_limit",
    "C42_pcg_limit_refuted",
    "C42_minres_count_refuted"
   ],
   "note": "MINRES/PMINRES make at most max_iter passes and PCG with max_iter >= 2 at most max_iter-1, reporting at most max_iter; full statement refuted: PCG with max_iter 0 or 1 still makes a pass and reports 2 (C42_pcg_limit_refuted, C42_pcg_ignores_small_limit), MINRES stopped by the limit reports max_iter+1 (C42_minres_count_refuted)"
  },
  {
   "property": "C43",
   "status": "partial",
   "theorems": [
    "C43_pcg_exact_start_partial",
    "C43_pcg_refuted",
    "C43_minres_refuted",
    "C43_pminres_refuted"
   ],
   "note": "PCG with a positive tolerance returns the start unchanged (C43_pcg_exact_start_partial); full statement refuted: PCG with zero tolerances computes 0/0 (C43_pcg_refuted), MINRES and PMINRES abort from every exact start (C43_minres_refuted, C43_pminres_refuted)"
  },
  {
   "property": "C44",
   "status": "partial",
   "theorems": [
    "C44_vector_round_trip_partial",
    "C44_matrix_round_trip_partial",
    "C44_doubles_kept",
    "C44_ints_kept",
    "C44_empty_refuted"
   ],
   "note": "Round trips proved for every non-empty vector and every matrix with at least one entry, and cut files detected or not characterised; for empty arrays the code takes &v[0], undefined by the standard: C44_empty_refuted."
  },
  {
   "property": "C45",
   "status": "proved",
   "theorems": [
    "C45_csr_round_trip",
    "C45_integer_matrices",
    "C45_int_matrices",
    "C45_any_layout"
   ],
   "note": ""
  },
  {
   "property": "C46",
   "status": "proved",
   "theorems": [
    "C46_mtx_round_trip",
    "C46_mtx_round_trip_exact",
    "C46_integer_matrices"
   ],
   "note": ""
  },
  {
   "property": "C47",
   "status": "partial",
   "theorems": [
    "C47_coo_round_trip_partial",
    "C47_coo_round_trip_exact_partial",
    "C47_short_decimals_partial",
    "C47_symmetric_partial",
    "C47_size_refuted",
    "C47_value_refuted"
   ],
   "note": "Full statement refuted (trailing empty rows and columns are lost, six digits only): C47_*_refuted. Proved: the entries, summed, come back for values that survive six digits."
  },
  {
   "property": "C48",
   "status": "partial",
   "theorems": [
    "C48_adjacency_round_trip_partial",
    "C48_table_round_trip_partial",
    "C48_size_refuted",
    "C48_empty_table_refuted"
   ],
   "note": "Full statement refuted (sizes lost, table without entries undefined): C48_*_refuted. Proved: the pattern comes back."
  },
  {
   "property": "C49",
   "status": "partial",
   "theorems": [
    "C49_17_digits_keep_every_double",
    "C49_short_decimals_partial",
    "C49_integers_partial",
    "C49_dense_decimals_partial",
    "C49_text_round_trip_partial",
    "C49_refuted",
    "C49_infinity_refuted"
   ],
   "note": "Full statement refuted: 16 digits do not determine a double (C49_*_refuted, axiom-free binary64). Proved: zero and doubles with at most 16 significant decimal digits survive; with 17 digits every finite double would."
  },
  {
   "property": "C50",
   "status": "proved",
   "theorems": [
    "C50_graph_file",
    "C50_laplacian",
    "C50_signs",
    "C50_edges_of_file"
   ],
   "note": ""
  },
  {
   "property": "C51",
   "status": "partial",
   "theorems": [
    "C51_construction",
    "C51_default",
    "C51_value_of_first_occurrence",
    "C51_untouched",
    "C51_bool",
    "C51_types",
    "C51_is_good",
    "C51_malformed_refuted",
    "C51_one_dash_refuted"
   ],
   "note": "Lookup, repeated flags, toggling and IsGood proved for every line and history of calls. 'Malformed lines are reported' is refuted by C51_malformed_refuted; one-dash flags by C51_one_dash_refuted."
  },
  {
   "property": "C52",
   "status": "partial",
   "theorems": [
    "C52_laps_sum_to_total_partial",
    "C52_nonnegative",
    "C52_laps_are_checked",
    "C52_doubles_refuted"
   ],
   "note": "Sum proved in exact arithmetic (refuted for doubles: C52_doubles_refuted); signs proved for any arithmetic; laps checked."
  },
  {
   "property": "C53",
   "status": "proved",
   "theorems": [
    "C53_relabelling",
    "C53_domain",
    "C53_idempotent",
    "C53_partition",
    "C53_partition_refuses"
   ],
   "note": ""
  },
  {
   "property": "C54",
   "status": "partial",
   "theorems": [
    "C54_adjacency_partial",
    "C54_sparse_refuted"
   ],
   "note": "Exact for matrices with at least rows-1 stored entries; a sparser graph makes the reserve of a negative count throw (C54_sparse_refuted)."
  },
  {
   "property": "C55",
   "status": "partial",
   "theorems": [
    "C55_selection_partial",
    "C55_call_succeeds",
    "C55_history_succeeds",
    "C55_outside_refuted",
    "C55_reuse",
    "C55_eigenpairs"
   ],
   "note": "Selection, reuse and eigenpairs for a correct LAPACK; refuted parts: max_evect = 0 yields one pair, and max_evect > n reads past the eigenvalues when all but the first are within tolerance (C55_outside_refuted)."
  },
  {
   "property": "C56",
   "status": "proved",
   "theorems": [
    "C56_offsets",
    "C56_offset",
    "C56_adjacent",
    "C56_one_owner",
    "C56_different_counts"
   ],
   "note": ""
  },
  {
   "property": "C57",
   "status": "proved",
   "theorems": [
    "C57_sort_column_map"
   ],
   "note": ""
  },
  {
   "property": "C58",
   "status": "partial",
   "theorems": [
    "C58_add",
    "C58_add_global",
    "C58_combination_partial",
    "C58_sub_partial",
    "C58_difference_partial",
    "C58_computed",
    "C58_difference_computed",
    "C58_refuted"
   ],
   "note": "Proved: ParAdd(A,B) represents A+B on every rank and globally, and hands the marker back all -1; alpha*A+beta*B and ParSub when alpha is 1 (or A has no off-diagonal entries) and beta is 1 or every off-diagonal column stored by B is stored by A. Refuted in general: the first off-diagonal entry of every column is not multiplied by its coefficient (parutilities.cpp:279); C58_computed says exactly what is computed."
  },
  {
   "property": "C59",
   "status": "partial",
   "theorems": [
    "C59_split_partial",
    "C59_computed",
    "C59_not_square",
    "C59_renumbering",
    "C59_refuted"
   ],
   "note": "Proved for matrices whose diagonal blocks (entries between vertices of one rank) are symmetric; C59_computed says what comes out for every square matrix. Refuted for other matrices: ParSplit keeps the upper half of a diagonal block and mirrors it."
  },
  {
   "property": "C60",
   "status": "proved",
   "theorems": [
    "C60_one_thread",
    "C60_adjacent",
    "C60_even",
    "C60_threads"
   ],
   "note": "All scalars, any number of threads, any interleaving; hypre_BinarySearch, hypre_CSRMatrixReorder, ExtractBExt and std::sort by contract. A data race or an access outside an array is FUB in the thread model, so Ok excludes both."
  },
  {
   "property": "C61",
   "status": "proved",
   "theorems": [
    "C61_product",
    "C61_world",
    "C61_single",
    "C61_refuses"
   ],
   "note": "One rank, all ranks and one process; hypre functions by contract (extracted, finds, reorders). Value theorems need ring laws, i.e. hold exactly up to reassociation of the additions."
  },
  {
   "property": "C62",
   "status": "proved",
   "theorems": [
    "C62_mult",
    "C62_l2norm",
    "C62_global_sum",
    "C62_sub_avg",
    "C62_sizes"
   ],
   "note": ""
  },
  {
   "property": "C63",
   "status": "proved",
   "theorems": [
    "C63_sparse_values",
    "C63_dense_values",
    "C63_coo_values",
    "C63_lil_values",
    "C63_block_matrix_values",
    "C63_block_vector_values",
    "C63_block_operator_values",
    "C63_pcg_values",
    "C63_minres_values",
    "C63_pminres_values",
    "C63_self_assign",
    "C63_copy_independent",
    "C63_moved_from_coo_refuted",
    "C63_moved_from_lil_refuted",
    "C63_moved_from_empty",
    "C63_moved_block_vector",
    "C63_moved_block_operator",
    "C63_moved_from_set_size",
    "C63_coo_assigned",
    "C63_vector_copy",
    "C63_vector_move",
    "C63_vector_assign",
    "C63_vector_swap",
    "C63_vector_self_assign"
   ],
   "note": "every class; beyond the claim, the source of a move from a CooMatrix or LilMatrix cannot be asked for its size (refuted theorems)"
  },
  {
   "property": "C64",
   "status": "partial",
   "theorems": [
    "C64_verify_partial",
    "C64_assert_refuted"
   ],
   "note": "linalgcpp_verify always stops; linalgcpp_assert is inverted: it is a no-op in builds with assertions enabled (C64_assert_refuted)."
  },
  {
   "property": "C65",
   "status": "partial",
   "theorems": [
    "C65_sum",
    "C65_max_norm_partial",
    "C65_max_norm_refuted"
   ],
   "note": "Sum proved; MaxNorm adds the magnitudes instead of taking the largest: C65_max_norm_refuted; it is still an upper bound: C65_max_norm_partial"
  },
  {
   "property": "C66",
   "status": "partial",
   "theorems": [
    "C66_orientation_partial",
    "C66_no_double_free",
    "C66_no_leak",
    "C66_moved_from_refuted",
    "C66_move_hands_over",
    "C66_move_assignment_refuted",
    "C66_self_move_refuted",
    "C66_copy_of_empty_refuted",
    "C66_empty_refuted"
   ],
   "note": "Both orientations after any history of construction, copy, assignment, swap and destruction, for a correct UMFPACK; moves and move assignment hand the solver over; refuted: destroying the source of a move or of a move assignment, moving an object onto itself, copies of a solver without stored entries, and empty matrices give zero."
  },
  {
   "property": "C67",
   "status": "partial",
   "theorems": [
    "C67_dense_products",
    "C67_empty_product_refuted"
   ],
   "note": "proved for non-empty factors relative to the contract of BLAS dgemm; empty factors are rejected by dgemm: C67_empty_product_refuted"
  },
  {
   "property": "C68",
   "status": "proved",
   "theorems": [
    "C68_dense_sum",
    "C68_dense_max",
    "C68_dense_min",
    "C68_dense_diag",
    "C68_dense_diag_refuses",
    "C68_dense_get_rows"
   ],
   "note": ""
  },
  {
   "property": "C69",
   "status": "proved",
   "theorems": [
    "C69_permute_rows_cols",
    "C69_permute_rows",
    "C69_permute_cols"
   ],
   "note": ""
  },
  {
   "property": "C70",
   "status": "proved",
   "theorems": [
    "C70_get_sub_vector"
   ],
   "note": ""
  },
  {
   "property": "C71",
   "status": "partial",
   "theorems": [
    "C71_index_in_range",
    "C71_index_above_partial",
    "C71_negative_index_refuted"
   ],
   "note": "upper bound checked; negative indices are not (C71_negative_index_refuted)"
  },
  {
   "property": "C72",
   "status": "proved",
   "theorems": [
    "C72_sub_avg",
    "C72_normalize",
    "C72_randomize"
   ],
   "note": ""
  },
  {
   "property": "C73",
   "status": "proved",
   "theorems": [
    "C73_mult_overloads",
    "C73_multAT_overloads",
    "C73_inner_product"
   ],
   "note": ""
  },
  {
   "property": "C74",
   "status": "proved",
   "theorems": [
    "C74_pcg_energy_norm_never_grows"
   ],
   "note": ""
  },
  {
   "property": "C75",
   "status": "partial",
   "theorems": [
    "C75_minres_residual_norm",
    "C75_pminres_residual_norm",
    "C75_tolerance_partial",
    "C75_tolerance_refuted"
   ],
   "note": "residual norm and monotonicity proved in full over all histories; the advertised tolerance is met for tolerances in [0,1] (C75_tolerance_partial), and refuted above 1, because a norm is compared with squared tolerances (C75_tolerance_refuted)"
  },
  {
   "property": "C76",
   "status": "proved",
   "theorems": [
    "C76_pcg_converges_in_n_passes",
    "C76_no_preconditioner",
    "C76_minres_converges_in_n_passes",
    "C76_pminres_converges_in_n_passes"
   ],
   "note": ""
  },
  {
   "property": "C77",
   "status": "proved",
   "theorems": [
    "C77_pcg_reusable",
    "C77_minres_reusable",
    "C77_pminres_reusable",
    "C77_result_depends_on_initial_guess"
   ],
   "note": "any history of calls that return; the result does depend on the initial guess held in the output (C77_result_depends_on_initial_guess)"
  },
  {
   "property": "C78",
   "status": "partial",
   "theorems": [
    "C78_cut_vector_refuted",
    "C78_cut_matrix_refuted",
    "C78_header_count_ignored_refuted"
   ],
   "note": "Full statement refuted: C78_cut_vector_refuted (every vector, every cut after the header: what is returned is characterised exactly), C78_cut_matrix_refuted (an invalid matrix is returned), C78_header_count_ignored_refuted (every Matrix Market file)."
  },
  {
   "property": "C79",
   "status": "proved",
   "theorems": [
    "C79_symmetric_file",
    "C79_symmetric_matrix",
    "C79_general_file",
    "C79_pattern_file",
    "C79_both_triangles_counted_twice"
   ],
   "note": "C79_both_triangles_counted_twice shows the behaviour for files that list both triangles."
  },
  {
   "property": "C80",
   "status": "proved",
   "theorems": [
    "C80_text_any_layout",
    "C80_coo_any_layout",
    "C80_adj_any_layout",
    "C80_table_any_layout"
   ],
   "note": ""
  },
  {
   "property": "C81",
   "status": "partial",
   "theorems": [
    "C81_text",
    "C81_coordinates",
    "C81_adjacency",
    "C81_matrix_market",
    "C81_table_partial",
    "C81_refuted"
   ],
   "note": "Refuted by C81_refuted (ReadCSR accepts unordered offsets; missing sizes read uninitialised variables; empty table undefined). Proved for ReadText, ReadCooList, ReadAdjList, ReadMTX, ReadMTXList and ReadTable with an index."
  },
  {
   "property": "C82",
   "status": "proved",
   "theorems": [
    "C82_show_options",
    "C82_show_help",
    "C82_show_errors"
   ],
   "note": ""
  },
  {
   "property": "C83",
   "status": "proved",
   "theorems": [
    "C83_constructor",
    "C83_constructed",
    "C83_collective"
   ],
   "note": ""
  },
  {
   "property": "C84",
   "status": "proved",
   "theorems": [
    "C84_scale",
    "C84_fill",
    "C84_scale_rows",
    "C84_inverse_scale_rows",
    "C84_eliminate_row",
    "C84_add_diag",
    "C84_add_diag_value",
    "C84_copy",
    "C84_negation"
   ],
   "note": ""
  },
  {
   "property": "C85",
   "status": "partial",
   "theorems": [
    "C85_bound_partial",
    "C85_refuted"
   ],
   "note": "Proved: MaxNorm is the same on all ranks and bounds every element. Refuted: it is the largest sum of absolute values over a block, not the largest element."
  },
  {
   "property": "C86",
   "status": "partial",
   "theorems": [
    "C86_constructor_partial",
    "C86_empty_rank_refuted",
    "C86_two_refuted"
   ],
   "note": "Proved: the exact condition for a partition with at least three elements. Refuted: a consistent layout with an empty last rank is refused; a partition of two elements passes the size check and is read out of bounds."
  },
  {
   "property": "C87",
   "status": "proved",
   "theorems": [
    "C87_entries",
    "C87_matrix"
   ],
   "note": "hypre functions by contract: the communication packages (packages), the search (finds), the reordering (reorders). C87_entries uses no law of arithmetic."
  },
  {
   "property": "C88",
   "status": "partial",
   "theorems": [
    "C88_norms",
    "C88_row_sums",
    "C88_empty_last_row_refuted",
    "C88_sign_refuted"
   ],
   "note": "Proved when every local row has an entry in the diag block, for all five cases of the option; exact row sums when the diagonal coefficient is stored first. Refuted: a last row without an entry in the diag block is read out of bounds, an earlier one takes its sign from a later row."
  },
  {
   "property": "C89",
   "status": "proved",
   "theorems": [
    "C89_product",
    "C89_triple_product",
    "C89_galerkin"
   ],
   "note": "hypre functions by contract: packages, extracts, finds, reorders; fetch is a function that meets extracts. Values need ring laws."
  },
  {
   "property": "C90",
   "status": "partial",
   "theorems": [
    "C90_no_fault_partial",
    "C90_all_released",
    "C90_matrix_seen",
    "C90_vector_seen",
    "C90_kept",
    "C90_moved_from",
    "C90_copy_matrix",
    "C90_copy_vector",
    "C90_move_refuted",
    "C90_copy_sails_refuted",
    "C90_copy_default_vector_refuted",
    "C90_copy_default_smoother_refuted",
    "C90_set_size_refuted"
   ],
   "note": "Proved for every history of the allowed operations (C90_no_fault_partial and the theorems after it). Refuted for what is left out: moving a ParSolver (base class) or ParSmoother, copying a ParaSails, copying a default constructed ParVector or ParSmoother, growing a ParVector with SetSize."
  },
  {
   "property": "C91",
   "status": "partial",
   "theorems": [
    "C91_amg",
    "C91_cg",
    "C91_sails_partial",
    "C91_diag",
    "C91_smoother",
    "C91_copy_diag",
    "C91_copy_smoother",
    "C91_copy_amg_refuted",
    "C91_copy_cg_refuted"
   ],
   "note": "Constructors and moves (C90_kept) proved for all five classes, copies for ParDiagScale and ParSmoother. Refuted: a copy of a BoomerAMG is never set up, a copy of a ParCG has lost tolerance, iteration limit and preconditioner, the load balance of ParaSails is truncated to an integer. hypre itself is by contract: what it is asked to compute is modelled, not the numbers."
  },
  {
   "property": "C92",
   "status": "partial",
   "theorems": [
    "C92_preconditioner_refuted",
    "C92_diag_scaling"
   ],
   "note": "Refuted for ParCG(A, M): hypre is given the setup and the solve function in exchanged places. EnableDiagScaling proved."
  },
  {
   "property": "C93",
   "status": "partial",
   "theorems": [
    "C93_svd",
    "C93_svd_outcome",
    "C93_qr_partial",
    "C93_qr_runs",
    "C93_qr_wide_refuted",
    "C93_invert",
    "C93_invert_outcome",
    "C93_invert_not_square",
    "C93_empty"
   ],
   "note": "SVD, Invert and QR of matrices with at least as many rows as columns proved, for every LAPACK that meets the contract of its routines and every outcome it may report. Refuted: QR with more columns than rows reads and writes outside the pivot array (C93_qr_wide_refuted)."
  },
  {
   "property": "C94",
   "status": "partial",
   "theorems": [
    "C94_mult",
    "C94_multAT",
    "C94_refuses",
    "C94_alloc_partial",
    "C94_alloc_refuted",
    "C94_view_partial",
    "C94_view_refuted"
   ],
   "note": "Products of ParVectors proved; the allocating overloads when every rank starts before the global end (else C94_alloc_refuted: they abort); the VectorView overloads when rows and columns are split alike (else C94_view_refuted: hypre is handed vectors with the partitions exchanged). hypre's products are by contract; C94_instance shows a product that meets it."
  },
  {
   "property": "C95",
   "status": "proved",
   "theorems": [
    "C95_transpose",
    "C95_transpose_widest",
    "C95_zero_matrix",
    "C95_product",
    "C95_product_overflow",
    "C95_submatrix",
    "C95_combine",
    "C95_to_sparse",
    "C95_dense_sizes",
    "C95_dense_negative",
    "C95_dense_access",
    "C95_dense_transpose",
    "C95_offsets",
    "C95_thread_rows"
   ],
   "note": "Exact boundary in both directions: with a result that an int can count the checked functions give what the unbounded ones give; beyond it the counters overflow, without a diagnostic. C95_product_overflow: two matrices of 46341 entries each are enough. Sizes need room for one more (row pointers). Only the functions in I32.v and I32Par.v are modelled with checked ints."
  },
  {
   "property": "C96",
   "status": "partial",
   "theorems": [
    "C96_sparse_mult",
    "C96_apart_in_time",
    "C96_sparse_mult_in_place",
    "C96_sparse_multAT",
    "C96_dense_mult",
    "C96_dense_multAT",
    "C96_sparse_apart",
    "C96_dense_apart",
    "C96_coo_apart",
    "C96_lil_apart",
    "C96_block_apart",
    "C96_sparse_multAT_in_place_refuted",
    "C96_dense_mult_in_place_refuted",
    "C96_sparse_mult_in_place_refuted",
    "C96_dense_multAT_in_place_refuted"
   ],
   "note": "Proved for all views without a common cell and, for SparseMatrix::Mult, for every overlap in which no stored entry reads a cell an earlier row has written (upper triangular matrices in place). False in general: in place, MultAT of a sparse and Mult of a dense matrix give zero for every matrix and vector, and sparse Mult and dense MultAT read elements they have overwritten; no function checks."
  },
  {
   "property": "C97",
   "status": "partial",
   "theorems": [
    "C97_sparse_text",
    "C97_coo_text",
    "C97_lil_text",
    "C97_report_determines",
    "C97_numbers_are_words",
    "C97_int_matrix",
    "C97_double_matrix",
    "C97_vector_determines",
    "C97_block_determines",
    "C97_block_prints",
    "C97_distributed_determines",
    "C97_distributed_text",
    "C97_dense_determines",
    "C97_dense_rounding",
    "C97_dense_same_text",
    "C97_default_precision_refuted",
    "C97_dense_columns_refuted"
   ],
   "note": "Positions and the texts of the values are determined for every class; the entries themselves for int matrices and for finite doubles at 17 or more digits; dense elements up to 10^-precision, for every width, when precision >= 1. False with the default precision of the stream (six digits), and for dense matrices printed with precision 0 and a small width, where the columns run together. The size of a sparse matrix is not printed at all."
  },
  {
   "property": "C98",
   "status": "partial",
   "theorems": [
    "C98_copy",
    "C98_halo",
    "C98_refused",
    "C98_null_refuted"
   ],
   "note": "The copy is exact and delivers every off-rank column on every rank; MakeCommPkg refuses a missing matrix or package. False for the constructor ParCommPkg itself: it dereferences its argument before asserting that it is not null."
  },
  {
   "property": "C99",
   "status": "partial",
   "theorems": [
    "C99_runs_partial",
    "C99_random_partial",
    "C99_refuses",
    "C99_long_refuted",
    "C99_status_refuted"
   ],
   "note": "Proved for matrices whose rows and columns are split alike over the ranks, for every solver behaviour and preconditioner. False otherwise (C94_view_refuted); a start vector longer than the local rows is copied over the end of the vector of the library, a shorter one is silently filled up with zeros, and the status of the solver is dropped."
  },
  {
   "property": "C100",
   "status": "proved",
   "theorems": [
    "C100_sparse_mult",
    "C100_sparse_multAT",
    "C100_sparse_dense",
    "C100_sparse_denseAT",
    "C100_sparse_denseCT",
    "C100_sparse_product",
    "C100_coo_mult",
    "C100_dense_mult",
    "C100_dense_multAT",
    "C100_inner",
    "C100_sum",
    "C100_dense_sum",
    "C100_norm",
    "C100_distributed_inner",
    "C100_distributed_sum",
    "C100_distributed_norm",
    "C100_factor",
    "C100_no_overflow"
   ],
   "note": ""
  },
  {
   "property": "C101",
   "status": "partial",
   "theorems": [
    "C101_row_access",
    "C101_rows_are_all",
    "C101_row_access_outside",
    "C101_scale_rows_by_matrix_partial",
    "C101_scale_cols_by_matrix_partial",
    "C101_inverse_scale_rows_by_matrix_partial",
    "C101_inverse_scale_cols_by_matrix_partial",
    "C101_scale_by_other_matrix_refuted",
    "C101_distributed_scale_rows_by_matrix_partial",
    "C101_distributed_inverse_scale_rows_by_matrix_partial",
    "C101_sparse_products",
    "C101_coo_products_partial",
    "C101_lil_products_partial",
    "C101_print_dense",
    "C101_print_dense_determines",
    "C101_print_dense_text",
    "C101_block_print_dense",
    "C101_eigen_sparse",
    "C101_eigen_new",
    "C101_square_block_matrix",
    "C101_square_block_operator",
    "C101_operator_block_read_back",
    "C101_operator_block_outside",
    "C101_block_matrix_moved_partial",
    "C101_transpose_moved_from_refuted",
    "C101_block_matrix_swap",
    "C101_no_transpose",
    "C101_distributed_sub_partial"
   ],
   "note": "Refuted by the code in three places, the rest proved: ScaleRows and the like accept any matrix with the right number of entries and ignore its pattern (C101_scale_by_other_matrix_refuted); MultAT of rectangular CooMatrix and LilMatrix is always rejected; Transpose of a moved-from block matrix reads past the end of its offsets (C101_transpose_moved_from_refuted). ParSub with a marker is correct under the conditions of C58 only."
  },
  {
   "property": "C102",
   "status": "proved",
   "theorems": [
    "C102_programs_compute_matrices",
    "C102_programs_observed",
    "C102_storage_does_not_matter",
    "C102_product_associative",
    "C102_transpose_of_product",
    "C102_scaled_product",
    "C102_members_that_see_the_storage"
   ],
   "note": ""
  },
  {
   "property": "C103",
   "status": "partial",
   "theorems": [
    "C103_concurrent_calls_partial",
    "C103_pcg_refuted",
    "C103_minres_refuted",
    "C103_block_operator_refuted",
    "C103_lil_to_sparse_refuted"
   ],
   "note": "Proved for SparseMatrix: threads that share matrices get what they get alone under every schedule (C103_concurrent_calls_partial). False of the code for PCGSolver, MINRESSolver (and PMINRESSolver, which fills its members the same way), BlockOperator and LilMatrix::ToSparse, whose const members write mutable members: the refuted theorems give racing schedules."
  },
  {
   "property": "C104",
   "status": "proved",
   "theorems": [
    "C104_no_deadlock",
    "C104_pcg",
    "C104_minres",
    "C104_pminres",
    "C104_pcg_converges",
    "C104_default_dot_deadlocks"
   ],
   "note": "hypre's product and MPI_Allreduce enter by contract. C104_default_dot_deadlocks shows that passing ParMult is necessary: with the default inner product a two-rank job deadlocks."
  },
  {
   "property": "C105",
   "status": "partial",
   "theorems": [
    "C105_sparse_history",
    "C105_sort_and_eliminate",
    "C105_coo_add",
    "C105_vector_set_size",
    "C105_coo_block_partial",
    "C105_coo_add_sym_refuted",
    "C105_lil_add_partial",
    "C105_lil_add_refuted",
    "C105_dense_set_size_refuted",
    "C105_dense_output_partial",
    "C105_output_functions",
    "C105_output_calls",
    "C105_submatrix_partial",
    "C105_submatrix_marker_refuted",
    "C105_next_submatrix_refuted",
    "C105_copy_partial",
    "C105_copy_terminates_refuted",
    "C105_vector_assign_refuted"
   ],
   "note": "Proved for the members that change a SparseMatrix, CooMatrix::Add(i, j, val) and Vector::SetSize. The full claim is false of the code: the _refuted theorems show it for DenseMatrix::SetSize, the marker of GetSubMatrix, AddSym, LilMatrix::Add and the noexcept copies; the _partial theorems say what holds there."
  },
  {
   "property": "C106",
   "status": "proved",
   "theorems": [
    "C106_shares",
    "C106_mult",
    "C106_program",
    "C106_pcg",
    "C106_minres",
    "C106_pminres",
    "C106_assembled_system",
    "C106_needs_symmetry"
   ],
   "note": ""
  },
  {
   "property": "C107",
   "status": "proved",
   "theorems": [
    "C107_pcg_programs",
    "C107_minres_programs",
    "C107_pminres_programs",
    "C107_sparse_operators",
    "C107_blank_refuses_operator",
    "C107_minres_limit"
   ],
   "note": ""
  },
  {
   "property": "C108",
   "status": "proved",
   "theorems": [
    "C108_lu_sound",
    "C108_lu_unique",
    "C108_lu_leading",
    "C108_solve",
    "C108_positive_definite",
    "C108_forward",
    "C108_back",
    "C108_short_right_side",
    "C108_pivots",
    "C108_no_row_exchange"
   ],
   "note": "C108_no_row_exchange shows that the condition on the leading blocks cannot be replaced by nonsingularity of A."
  },
  {
   "property": "C109",
   "status": "proved",
   "theorems": [
    "C109_qr",
    "C109_qr_unique",
    "C109_dependent",
    "C109_wide",
    "C109_least_squares",
    "C109_square",
    "C109_iteration",
    "C109_similar",
    "C109_iteration_singular",
    "C109_symmetrize"
   ],
   "note": ""
  },
  {
   "property": "C110",
   "status": "proved",
   "theorems": [
    "C110_values",
    "C110_refuses",
    "C110_matrix",
    "C110_action",
    "C110_constant",
    "C110_symmetric",
    "C110_energy",
    "C110_bounds",
    "C110_null_space",
    "C110_program",
    "C110_program_relation",
    "C110_program_refuses",
    "C110_duplicates_refuted"
   ],
   "note": "for matrices with one stored diagonal entry per row, which is what the product in main() gives; with several the rows need not sum to 0 (C110_duplicates_refuted)"
  },
  {
   "property": "C111",
   "status": "proved",
   "theorems": [
    "C111_outcome",
    "C111_no_passes",
    "C111_nonsingular",
    "C111_symmetric",
    "C111_range",
    "C111_eigenvector",
    "C111_monotone",
    "C111_improves",
    "C111_converges",
    "C111_laplacian",
    "C111_singular_refuted"
   ],
   "note": "exact arithmetic over ordered fields with square roots; C111_singular_refuted shows that the hypothesis of C111_nonsingular cannot be dropped"
  },
  {
   "property": "C112",
   "status": "partial",
   "theorems": [
    "C112_inner_parvector",
    "C112_inner_plain",
    "C112_norm_parvector",
    "C112_norm_plain",
    "C112_par_mult_plain",
    "C112_par_mult_parvector_refuted",
    "C112_par_l2norm_plain",
    "C112_par_l2norm_parvector_refuted",
    "C112_operators",
    "C112_operators_refuse",
    "C112_assign_value",
    "C112_sub_avg_zero",
    "C112_normalize_refuted",
    "C112_normalize_zero_part_refuted"
   ],
   "note": "proved except for ParMult and ParL2Norm called with ParVectors, which are off by the number of ranks, and Normalize of a ParVector, which normalises rank by rank: the code violates these parts (the _refuted theorems say what it does instead)"
  },
  {
   "property": "C113",
   "status": "proved",
   "theorems": [
    "C113_forward_elimination",
    "C113_back_substitution",
    "C113_factors",
    "C113_residual",
    "C113_nearby_system"
   ],
   "note": ""
  },
  {
   "property": "C114",
   "status": "proved",
   "theorems": [
    "C114_vector_operators",
    "C114_vector_operators_refuse",
    "C114_pcg_any_start",
    "C114_minres_any_start",
    "C114_pminres_any_start",
    "C114_sparse_dense_products",
    "C114_transpose_dense",
    "C114_rows_and_columns"
   ],
   "note": ""
  },
  {
   "property": "C115",
   "status": "proved",
   "theorems": [
    "C115_passes_are_applications",
    "C115_in_krylov_space",
    "C115_optimal",
    "C115_residual_orthogonal",
    "C115_no_more_passes_than_needed",
    "C115_as_many_passes_as_eigenvalues"
   ],
   "note": ""
  },
  {
   "property": "C116",
   "status": "proved",
   "theorems": [
    "C116_minres_passes_are_applications",
    "C116_pminres_passes_are_applications",
    "C116_minres_optimal",
    "C116_pminres_optimal",
    "C116_minres_no_more_passes_than_needed",
    "C116_pminres_no_more_passes_than_needed",
    "C116_minres_as_many_passes_as_eigenvalues",
    "C116_pminres_as_many_passes_as_eigenvalues"
   ],
   "note": ""
  },
  {
   "property": "C117",
   "status": "proved",
   "theorems": [
    "C117_pcg_chebyshev",
    "C117_plain_eigenvalues",
    "C117_pcg_rate",
    "C117_minres_chebyshev",
    "C117_pminres_chebyshev",
    "C117_minres_rate",
    "C117_pminres_rate"
   ],
   "note": ""
  },
  {
   "property": "C118",
   "status": "proved",
   "theorems": [
    "C118_pcg_passes",
    "C118_minres_passes",
    "C118_pminres_passes",
    "C118_pcg_larger_limit",
    "C118_minres_larger_limit",
    "C118_pminres_larger_limit"
   ],
   "note": ""
  },
  {
   "property": "C119",
   "status": "proved",
   "theorems": [
    "C119_view_reads",
    "C119_assignments",
    "C119_rejected",
    "C119_outside_vectors",
    "C119_negative_index_refuted",
    "C119_bad_column"
   ],
   "note": "the statement is proved as given; C119_negative_index_refuted and C119_bad_column record what is not rejected: a negative view index, and a column outside the matrix"
  },
  {
   "property": "C120",
   "status": "proved",
   "theorems": [
    "C120_sparse_square",
    "C120_sparse_vectors",
    "C120_sparse_dense",
    "C120_sparse_product",
    "C120_sparse_scalings",
    "C120_sparse_inverse_scale_rows_zero",
    "C120_sparse_inverse_scale_cols_zero",
    "C120_sparse_eliminations",
    "C120_sparse_by_zero",
    "C120_sparse_sizes",
    "C120_sparse_permutation",
    "C120_sparse_submatrix",
    "C120_dense_sizes",
    "C120_dense_element",
    "C120_dense_vectors",
    "C120_dense_products",
    "C120_dense_lines",
    "C120_dense_pairs",
    "C120_dense_parts",
    "C120_dense_sum_empty",
    "C120_dense_reductions",
    "C120_dense_inverse_scale_rows_zero",
    "C120_dense_inverse_scale_cols_zero",
    "C120_coo_sizes",
    "C120_coo_entry",
    "C120_coo_blocks",
    "C120_coo_list_entry",
    "C120_coo_permutations",
    "C120_coo_vectors",
    "C120_lil_sizes",
    "C120_lil_entry",
    "C120_lil_blocks",
    "C120_block_access",
    "C120_block_misfit",
    "C120_block_vectors",
    "C120_operator_access",
    "C120_operator_misfit",
    "C120_operator_vectors",
    "C120_vector_lengths",
    "C120_vector_pairs",
    "C120_vector_by_zero",
    "C120_vector_empty",
    "C120_vector_element",
    "C120_cg",
    "C120_pcg",
    "C120_minres",
    "C120_pminres",
    "C120_factorize",
    "C120_solve_vectors",
    "C120_par_add",
    "C120_adjacency",
    "C120_partition"
   ],
   "note": ""
  }
 ]
}