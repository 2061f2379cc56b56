{
 "claims": [
  {
   "property": "C01",
   "status": "proved",
   "theorems": [
    "C01_copies_are_independent_values"
   ],
   "note": ""
  },
  {
   "property": "C02",
   "status": "proved",
   "theorems": [
    "C02_reference_counts_exact"
   ],
   "note": ""
  },
  {
   "property": "C03",
   "status": "proved",
   "theorems": [
    "C03_foreign_memory"
   ],
   "note": ""
  },
  {
   "property": "C04",
   "status": "partial",
   "theorems": [
    "C04_shared_ptr_copy_refuted",
    "C04_shared_ptr_partial"
   ],
   "note": "The property is false of the code: C04_shared_ptr_copy_refuted. The partial theorem covers histories without copies."
  },
  {
   "property": "C05",
   "status": "proved",
   "theorems": [
    "C05_element_access"
   ],
   "note": ""
  },
  {
   "property": "C06",
   "status": "proved",
   "theorems": [
    "C06_element_write",
    "C06_element_write_rejected",
    "C06_positions_bijective"
   ],
   "note": ""
  },
  {
   "property": "C07",
   "status": "proved",
   "theorems": [
    "C07_reshape",
    "C07_flatten"
   ],
   "note": ""
  },
  {
   "property": "C08",
   "status": "partial",
   "theorems": [
    "C08_total_size_partial",
    "C08_total_size_refuted",
    "C08_overflow",
    "C08_constructed_size_partial",
    "C08_constructed_size"
   ],
   "note": "The product of extents may overflow on the way even when the result is representable: C08_total_size_refuted; C08_overflow characterises exactly when (nonnegative extents). Proved when no prefix of the product overflows (C08_total_size_partial, C08_constructed_size_partial, for construction from Indices and from integers). C08_constructed_size ties every construction of the nat model to its dimensions."
  },
  {
   "property": "C09",
   "status": "proved",
   "theorems": [
    "C09_slice_read",
    "C09_linear_slice"
   ],
   "note": "Ranges per dimension (C09_slice_read), for tensors without empty dimensions, and one range on a tensor of any rank, also empty (C09_linear_slice). Empty dimensions: C13."
  },
  {
   "property": "C10",
   "status": "proved",
   "theorems": [
    "C10_assign_number",
    "C10_assign_tensor",
    "C10_assign_slice",
    "C10_linear"
   ],
   "note": "Distinct selected positions."
  },
  {
   "property": "C11",
   "status": "partial",
   "theorems": [
    "C11_negative_position_refuted",
    "C11_negative_position_outside_refuted"
   ],
   "note": "Refuted: the code never normalises negative positions in ranges."
  },
  {
   "property": "C12",
   "status": "partial",
   "theorems": [
    "C12_out_of_range_partial",
    "C12_wrong_rank",
    "C12_refused_exactly",
    "C12_index_list_refuted"
   ],
   "note": "C12_refused_exactly says for all ranges and tensors what is refused: a wrong number of ranges or a position beyond the end. C12_out_of_range_partial and C12_wrong_rank: hence out-of-range selections by ranges with non-negative positions, start <= end and positive step are refused, except an index list that contains the extent (C12_index_list_refuted). Negative positions are not refused (C11)."
  },
  {
   "property": "C13",
   "status": "partial",
   "theorems": [
    "C13_empty_dimension_hangs_refuted",
    "C13_empty_dimension_traps_refuted",
    "C13_negative_step_refuted",
    "C13_full_slices_partial",
    "C13_terminates_partial",
    "C13_negative_step_hangs_refuted"
   ],
   "note": "C13_terminates_partial: slices and all assignments to them come to an end for one range of any kind, and for any ranges of tensors without empty dimensions if no range with a negative step starts at or before its end; what they deliver is C09, C10 and C12; full slices of any shape: C13_full_slices_partial. The rest is false: C13_negative_step_hangs_refuted (endless loop without empty dimensions), C13_empty_dimension_hangs_refuted, C13_empty_dimension_traps_refuted, C13_negative_step_refuted (uninitialised elements)."
  },
  {
   "property": "C14",
   "status": "proved",
   "theorems": [
    "C14_permute",
    "C14_permute_rejects",
    "C14_permute_twice",
    "C14_transpose_is_permute"
   ],
   "note": ""
  },
  {
   "property": "C15",
   "status": "proved",
   "theorems": [
    "C15_transpose",
    "C15_adjoint",
    "C15_transpose_twice",
    "C15_adjoint_twice",
    "C15_rank_two_only"
   ],
   "note": ""
  },
  {
   "property": "C16",
   "status": "proved",
   "theorems": [
    "C16_fold",
    "C16_fold_rejects_extents",
    "C16_fold_rejects_indices",
    "C16_mmult"
   ],
   "note": "gemm (BLAS) is modelled by its specification in exact arithmetic."
  },
  {
   "property": "C17",
   "status": "proved",
   "theorems": [
    "C17_foldc",
    "C17_foldc_elements",
    "C17_foldc_real",
    "C17_foldc_real_real",
    "C17_mixed"
   ],
   "note": "gemm (BLAS) is modelled by its specification in exact arithmetic."
  },
  {
   "property": "C18",
   "status": "partial",
   "theorems": [
    "C18_foldin_partial",
    "C18_foldin_rejects_extents",
    "C18_foldin_vectors_refuted"
   ],
   "note": "Proved except when both arguments are vectors, where the code writes out of bounds (C18_foldin_vectors_refuted)."
  },
  {
   "property": "C19",
   "status": "partial",
   "theorems": [
    "C19_into_partial",
    "C19_mmult_into_first_refuted",
    "C19_mmult_into_second_refuted",
    "C19_foldin_into_refuted"
   ],
   "note": "Proved when the destination is a different object; refuted when the destination is one of the arguments (reads the reallocated block)."
  },
  {
   "property": "C20",
   "status": "proved",
   "theorems": [
    "C20_kron",
    "C20_kron_vectors",
    "C20_kron2",
    "C20_kron2_is_kron",
    "C20_rejects",
    "C20_mixed_product"
   ],
   "note": "Element formulas for matrices and vectors, kron2 = exchanged kron, rank rejection, mixed product rule (exact arithmetic)."
  },
  {
   "property": "C21",
   "status": "partial",
   "theorems": [
    "C21_dense_partial",
    "C21_dense_vectors_partial",
    "C21_sparse_partial",
    "C21_sparse_size_refuted",
    "C21_sparse_ordering_refuted"
   ],
   "note": "Dense matrices and vectors: proved for every size. Sparse: the identities have the size of the number of stored elements, so it holds when that equals the number of rows (proved, with kron2's ordering) and fails otherwise (two refutations: wrong size, and an ordering different from the dense function)."
  },
  {
   "property": "C22",
   "status": "proved",
   "theorems": [
    "C22_scale",
    "C22_scale_inplace",
    "C22_wrong_size_rejected",
    "C22_wrong_index_rejected"
   ],
   "note": "That no other tensor is changed is C02: scale_inplace writes only through the mutating begin()."
  },
  {
   "property": "C23",
   "status": "proved",
   "theorems": [
    "C23_change_dimension",
    "C23_wrong_index_rejected"
   ],
   "note": "New sizes >= 0."
  },
  {
   "property": "C24",
   "status": "partial",
   "theorems": [
    "C24_trace_partial",
    "C24_first_index_as_minus_rank_refuted",
    "C24_same_index_rejected",
    "C24_wrong_index_rejected",
    "C24_matrix_trace"
   ],
   "note": "All index pairs except the spelling -rank of the first index, which is refused (refuted)."
  },
  {
   "property": "C25",
   "status": "partial",
   "theorems": [
    "C25_diag",
    "C25_diag_wrong_size_rejected",
    "C25_diag_square",
    "C25_take_diag_partial",
    "C25_take_diag_refuted",
    "C25_take_diag_bounds_refuted",
    "C25_take_diag_of_diag",
    "C25_take_diag_same_index_refuted"
   ],
   "note": "diag and the inverse law are proved; take_diag of rank > 2 is refuted because the outer stride uses the wrong extent."
  },
  {
   "property": "C26",
   "status": "partial",
   "theorems": [
    "C26_squeeze_partial",
    "C26_squeeze_all_ones_refuted",
    "C26_squeeze_empty_dimension_refuted"
   ],
   "note": "Holds for shapes without empty dimensions that are not all ones; refuted for those."
  },
  {
   "property": "C27",
   "status": "partial",
   "theorems": [
    "C27_tensor_tensor_partial",
    "C27_accepts_other_shapes_refuted",
    "C27_mixed_types",
    "C27_tensor_number",
    "C27_number_tensor",
    "C27_function",
    "C27_compound_partial",
    "C27_compound_mixed",
    "C27_compound_self"
   ],
   "note": "All operator forms, for an arbitrary binary operation. Same-type operators accept equal-sized tensors of other shapes: C27_accepts_other_shapes_refuted."
  },
  {
   "property": "C28",
   "status": "partial",
   "theorems": [
    "C28_vectors",
    "C28_number_right",
    "C28_size_mismatch_rejected",
    "C28_any_element_type",
    "C28_number_left_partial",
    "C28_number_left_refuted",
    "C28_all_equal",
    "C28_all_equal_number"
   ],
   "note": "Comparisons of vectors and of a vector with a number on the right are elementwise, with equal sizes enforced; all_equal is exact. With the number on the left the four orderings are wrong exactly at ties (proved refuted), and proved right elsewhere."
  },
  {
   "property": "C29",
   "status": "proved",
   "theorems": [
    "C29_and_or",
    "C29_not",
    "C29_size_mismatch_rejected",
    "C29_quantifiers",
    "C29_which"
   ],
   "note": "Elementwise and/or/not with size check, all_of/any_of/none_of as quantifiers, which as the list of true positions."
  },
  {
   "property": "C30",
   "status": "partial",
   "theorems": [
    "C30_iota_partial",
    "C30_iota_members",
    "C30_iota_negative_step_refuted",
    "C30_concatenation",
    "C30_generators",
    "C30_all_equal"
   ],
   "note": "iota with a positive step, concatenation, generators, all_equal. A negative step gives an empty vector or a failed allocation and a zero step divides by zero (proved refuted)."
  },
  {
   "property": "C31",
   "status": "partial",
   "theorems": [
    "C31_sum",
    "C31_scprod_partial",
    "C31_scprod_sizes_unchecked_refuted",
    "C31_mean_partial",
    "C31_mean_last_index_refuted",
    "C31_mean_vector",
    "C31_max_min",
    "C31_max_min_empty_rejected",
    "C31_norm0"
   ],
   "note": "sum, scprod of equal sizes, mean over every index but the last, max, min and norm0 proved. mean over the last index of a tensor with two or more writes out of bounds (refuted), for a vector the index is not checked; scprod does not compare sizes (refuted)."
  },
  {
   "property": "C32",
   "status": "partial",
   "theorems": [
    "C32_sort",
    "C32_sort_indices",
    "C32_sort_integers_partial",
    "C32_sort_integers_refuted",
    "C32_sort_indices_integers"
   ],
   "note": "sort and sort_indices over any strict total order, for any std::sort meeting its contract. The sort of integers compares them after conversion to double: proved up to 2^53, refuted beyond."
  },
  {
   "property": "C33",
   "status": "proved",
   "theorems": [
    "C33_eye",
    "C33_zeros_ones",
    "C33_linspace_number",
    "C33_linspace_tensor",
    "C33_linspace_one_point"
   ],
   "note": "linspace over exact rationals."
  },
  {
   "property": "C34",
   "status": "partial",
   "theorems": [
    "C34_coordinates_partial",
    "C34_any_order",
    "C34_lengths_checked",
    "C34_reserve",
    "C34_default_sizes_refuted"
   ],
   "note": "Proved for given sizes and distinct in-range coordinates, for every std::sort meeting its contract, in any order of the lists. The default sizes are one too small (refuted)."
  },
  {
   "property": "C35",
   "status": "proved",
   "theorems": [
    "C35_dense_sparse_dense",
    "C35_sparse_dense_sparse",
    "C35_full",
    "C35_get",
    "C35_get_checked",
    "C35_eye"
   ],
   "note": "full and Sparse(dense) are inverse, element access agrees with full and is checked, eye."
  },
  {
   "property": "C36",
   "status": "proved",
   "theorems": [
    "C36_elementwise",
    "C36_agrees_with_dense",
    "C36_dimensions_checked",
    "C36_unary"
   ],
   "note": "Entry by entry and through full, for every operation with 0 op 0 = 0; termination of the merge loop included; unary operations keep the stored pattern."
  },
  {
   "property": "C37",
   "status": "proved",
   "theorems": [
    "C37_transpose",
    "C37_transpose_agrees_with_dense",
    "C37_adjoint",
    "C37_adjoint_agrees_with_dense",
    "C37_kron",
    "C37_kron_agrees_with_dense"
   ],
   "note": "Entry by entry and through full, for transpose, adjoint, kron and kron2."
  },
  {
   "property": "C38",
   "status": "partial",
   "theorems": [
    "C38_sparse_tensor_partial",
    "C38_sparse_tensor_elements",
    "C38_empty_contraction_refuted",
    "C38_dimensions_checked",
    "C38_tensor_sparse_always_aborts_refuted",
    "C38_tensor_sparse_partial"
   ],
   "note": "mmult(S,t) agrees with the dense product for every rank when the contracted dimension is positive; for an empty contraction the dense one aborts (refuted). mmult(t,S) always aborts (refuted); its kernel is proved right when given the last dimension."
  },
  {
   "property": "C39",
   "status": "partial",
   "theorems": [
    "C39_round_trip_partial",
    "C39_size_t_refuted",
    "C39_largest_size_t_refuted",
    "C39_size_t_partial",
    "C39_size_t_exact"
   ],
   "note": "End to end: session, open, load of any sequence of records, any mode (size_t below 2^53). C39_size_t_partial: every size_t comes back as the closest number that a double can hold, undefined for the last 1024; C39_size_t_exact: it comes back unchanged exactly when a double can hold it. Refuted for 2^53+1 (comes back as 2^53) and 2^64-1 (undefined conversion)."
  },
  {
   "property": "C40",
   "status": "partial",
   "theorems": [
    "C40_name",
    "C40_type",
    "C40_number",
    "C40_complex_number",
    "C40_empty_number_refuted",
    "C40_header",
    "C40_foreign_partial",
    "C40_short_header_refuted",
    "C40_long_name_refuted"
   ],
   "note": "Names of at most 63 characters, types and headers are rejected as claimed. Refuted: names of 64 characters, numbers from empty tensors (read out of bounds), headers that are just 'sdf' (read out of bounds)."
  },
  {
   "property": "C41",
   "status": "partial",
   "theorems": [
    "C41_complete_records_partial",
    "C41_truncated_refuted"
   ],
   "note": "Records complete before the cut are loaded right. The property itself is refuted: any real tensor cut among its elements can be loaded without error with arbitrary values in place of the lost ones, because read_raw never sees the end of the file."
  },
  {
   "property": "C42",
   "status": "proved",
   "theorems": [
    "C42_append",
    "C42_read_back",
    "C42_after_crash_refuted"
   ],
   "note": "Any number of append sessions equals one session with all records, and reads back. A session killed before the header is written makes later sessions produce an unreadable file (C42_after_crash_refuted)."
  },
  {
   "property": "C43",
   "status": "partial",
   "theorems": [
    "C43_crash_partial",
    "C43_new_file",
    "C43_crash_history_partial",
    "C43_window_refuted",
    "C43_total_loss_refuted"
   ],
   "note": "At every crash point of any history the file is never incomplete. Refuted in full: between delete and rename the file is missing, for every previous contents, and a second killed session loses both versions."
  },
  {
   "property": "C44",
   "status": "partial",
   "theorems": [
    "C44_exclusive_refuted",
    "C44_before_release_partial",
    "C44_atomic_acquire_partial"
   ],
   "note": "Refuted: unlink before close lets two processes hold. Proved for unboundedly many processes: exclusive until the first release, and always if open+flock are not interleaved."
  },
  {
   "property": "C45",
   "status": "proved",
   "theorems": [
    "C45_enumeration",
    "C45_zero_steps_refuted"
   ],
   "note": "Any number of variables with any positive number of values; the k-th job is the mixed-radix decoding of k. Zero steps crash (C45_zero_steps_refuted), outside the quantifier."
  },
  {
   "property": "C46",
   "status": "partial",
   "theorems": [
    "C46_blocks",
    "C46_interval",
    "C46_this_job",
    "C46_default_block_refuted",
    "C46_first_job_alone_refuted",
    "C46_refuses",
    "C46_first_then_this_refuted"
   ],
   "note": "Blocks partition the jobs in order for any numbers of jobs and blocks, --first/--last-job and --this-job run what they should. Refuted: --job-blocks without --this-job and --first-job without --last-job use uninitialised numbers. What makes no sense is refused (C46_refuses), except --first-job followed by --this-job, which is accepted and ignored (refuted)."
  },
  {
   "property": "C47",
   "status": "partial",
   "theorems": [
    "C47_job_file_refuted",
    "C47_file_ignored_refuted"
   ],
   "note": "Refuted: the job file is never read, its contents are irrelevant to the job, and no variable is defined. How a line is parsed is C62."
  },
  {
   "property": "C48",
   "status": "proved",
   "theorems": [
    "C48_flags",
    "C48_histories"
   ],
   "note": "All histories of create/set/get."
  },
  {
   "property": "C49",
   "status": "partial",
   "theorems": [
    "C49_sequence",
    "C49_sequence_32bits",
    "C49_sequence_exists",
    "C49_default_seed",
    "C49_doubles",
    "C49_doubles_32bits",
    "C49_float_refuted",
    "C49_empty_key",
    "C49_doubles_exact",
    "C49_doubles_exact_32bits",
    "C49_float_partial",
    "C49_float_32bits_partial"
   ],
   "note": "proved for all seeds, histories and draw counts, for both word sizes; doubles lie in [0,1), and the floating point expressions that compute them are exact (C49_doubles_exact, C49_doubles_exact_32bits); the claim fails for rand<float>, which rounds 1-2^-53 to 1.0 (C49_float_refuted). Distribution quality is not a property of the model. C49_float_partial, C49_float_32bits_partial: rand<float>() is the float nearest to that double, in [0, 1], and is 1 for one output in 2^25."
  },
  {
   "property": "C50",
   "status": "partial",
   "theorems": [
    "C50_ulong",
    "C50_int_partial",
    "C50_int_refuted",
    "C50_long_refuted",
    "C50_long_partial",
    "C50_double_upper_partial",
    "C50_double_upper_refuted",
    "C50_double_partial",
    "C50_double_refuted",
    "C50_double_wide_refuted",
    "C50_empty_range"
   ],
   "note": "rand<unsigned long> proved; rand<int> proved when upper-lower fits an int, undefined otherwise (C50_int_refuted); rand<long> can return values below lower (C50_long_refuted), C50_long_partial says by how much. rand<double>(upper) proved for upper > 2^-1022, refuted for 2^-1022; rand<double>(lower,upper) stays in the closed interval (C50_double_partial, limits up to 2^1022) but can return upper (C50_double_refuted, C50_double_wide_refuted). C50_empty_range: a range without numbers gives lower."
  },
  {
   "property": "C51",
   "status": "proved",
   "theorems": [
    "C51_forward_dimension",
    "C51_backward_dimension",
    "C51_forward_marked",
    "C51_backward_marked",
    "C51_forward_all",
    "C51_inverse_marked",
    "C51_inverse_all",
    "C51_wrong_dimension_rejected",
    "C51_wrong_marks_rejected"
   ],
   "note": "all shapes including empty ones, all three forms; the rotation amount is floor(N/2) forward and its inverse backward"
  },
  {
   "property": "C52",
   "status": "partial",
   "theorems": [
    "C52_blocks",
    "C52_blocks_tolerance_partial",
    "C52_components_unique",
    "C52_tolerance_refuted"
   ],
   "note": "Proved in full for the default tolerance (all shapes) and for any tolerance when rows <= columns; refuted for tall matrices with a tolerance: the recursive call on the transpose drops tol."
  },
  {
   "property": "C53",
   "status": "partial",
   "theorems": [
    "C53_block_svd_partial",
    "C53_full_rank",
    "C53_rectangular",
    "C53_square_refuted",
    "C53_unitary_refuted",
    "C53_empty",
    "C53_outputs"
   ],
   "note": "Proved for the economic mode and for square matrices with square blocks, given that svd decomposes the blocks it is called on: the result decomposes the input, with nonnegative descending singular values; each block has its own slots (live columns are orthonormal, the others are zero). A full SVD when the blocks have min(n,m) singular values. C53_outputs: the same for every choice of outputs. Refuted: square non-economic matrices with rectangular blocks abort; U and VT of a matrix with zero rows and columns are not unitary. C53_empty: a matrix with a zero dimension gives no singular values and U and VT without elements (except in the mode that is not economic when rows and columns differ: svd stops). Missing: LAPACK itself."
  },
  {
   "property": "C54",
   "status": "partial",
   "theorems": [
    "C54_pade",
    "C54_equation",
    "C54_rejects",
    "C54_scaling",
    "C54_zero_refuted",
    "C54_norm_half_refuted"
   ],
   "note": "Proved in exact arithmetic over any field of characteristic 0 for every order >= 1 and size >= 1, with the linear solver as a parameter; scaling exponent proved least with row sums below 1 for rational matrices. Refuted: the zero matrix (undefined conversion), the comment that the norm is brought below 1/2. Missing: rounding."
  },
  {
   "property": "C55",
   "status": "partial",
   "theorems": [
    "C55_negative_dimension_refuted",
    "C55_integers_refuted",
    "C55_integers_partial"
   ],
   "note": "Refuted: negative dimensions are accepted (C55_negative_dimension_refuted), and two negative integers give a tensor with elements (C55_integers_refuted). Proved: integers whose product is negative are rejected (C55_integers_partial)."
  },
  {
   "property": "C56",
   "status": "partial",
   "theorems": [
    "C56_self_assignment_refuted"
   ],
   "note": "Refuted."
  },
  {
   "property": "C57",
   "status": "partial",
   "theorems": [
    "C57_compound_number_partial",
    "C57_compound_own_element_refuted"
   ],
   "note": "Proved for a number outside the tensor; false when it is an element of the tensor (C57_compound_own_element_refuted)."
  },
  {
   "property": "C58",
   "status": "partial",
   "theorems": [
    "C58_norminf",
    "C58_not_a_matrix_rejected",
    "C58_no_columns_refuted"
   ],
   "note": "Proved for every matrix with at least one column. With rows but no columns the data are read out of bounds (refuted)."
  },
  {
   "property": "C59",
   "status": "partial",
   "theorems": [
    "C59_all_equal_partial",
    "C59_explicit_zeros_refuted"
   ],
   "note": "Proved when neither matrix stores a zero, which all results of +,-,*, transpose, Sparse(dense) and coordinate lists satisfy; refuted for multiples by zero."
  },
  {
   "property": "C60",
   "status": "partial",
   "theorems": [
    "C60_input_partial",
    "C60_input_overwrite_refuted",
    "C60_input_paranoid_refuted"
   ],
   "note": "Proved for SDF_SHARED, the default. Refuted for SDF_OVERWRITE (the file is deleted) and SDF_PARANOID (the temporary file is deleted and the named one is not read)."
  },
  {
   "property": "C61",
   "status": "proved",
   "theorems": [
    "C61_closed"
   ],
   "note": "All modes and histories."
  },
  {
   "property": "C62",
   "status": "proved",
   "theorems": [
    "C62_words",
    "C62_values",
    "C62_constant",
    "C62_refused"
   ],
   "note": "All strings; the values in exact arithmetic."
  },
  {
   "property": "C63",
   "status": "proved",
   "theorems": [
    "C63_get_value"
   ],
   "note": "All jobs visited by the loop, all names, repeated names included."
  },
  {
   "property": "C64",
   "status": "partial",
   "theorems": [
    "C64_marked",
    "C64_dimension",
    "C64_all",
    "C64_inverse",
    "C64_rejects",
    "C64_empty_refuted"
   ],
   "note": "All shapes, choices and directions, over any commutative ring with roots of unity, with the FFTW library replaced by its documented meaning; empty tensors are refuted (null plan)."
  },
  {
   "property": "C65",
   "status": "partial",
   "theorems": [
    "C65_solve",
    "C65_rejects",
    "C65_empty_refuted",
    "C65_rank_refuted"
   ],
   "note": "All shapes, over any numbers, with xGESV replaced by its LAPACK contract; refuted: an empty system divides by zero and a tensor A of rank 3 is accepted."
  },
  {
   "property": "C66",
   "status": "partial",
   "theorems": [
    "C66_formula",
    "C66_pseudoinverse",
    "C66_consistent",
    "C66_zero_matrix_refuted"
   ],
   "note": "All matrices with at least one singular value above tol, exact arithmetic, with svd replaced by its contract; refuted when no singular value is above tol (aborts)."
  },
  {
   "property": "C67",
   "status": "partial",
   "theorems": [
    "C67_real",
    "C67_complex",
    "C67_rejects",
    "C67_left_documented_refuted"
   ],
   "note": "eig for real (with the unpacking of conjugate pairs) and complex matrices, from the documented output of xGEEV; shapes refused. The documented L A = D L is refuted: the columns of L are left eigenvectors, so it is adjoint(L) A = D adjoint(L)."
  },
  {
   "property": "C68",
   "status": "partial",
   "theorems": [
    "C68_complex_partial",
    "C68_real_partial",
    "C68_rejects",
    "C68_right_vectors_refuted",
    "C68_complex_pairs_refuted"
   ],
   "note": "Matrices of up to four rows: the chosen eigenvalues, in order, with LEFT eigenvectors; for real matrices the real parts of both. Refuted: the vectors returned are not (right) eigenvectors, and a real matrix with complex eigenvalues gets numbers that are not eigenvalues. All n eigenvalues of an n>4 matrix are refused although the message says up to n. The ARPACK iteration for n>4 is not modelled here."
  },
  {
   "property": "C69",
   "status": "proved",
   "theorems": [
    "C69_iterates",
    "C69_solves",
    "C69_sparse"
   ],
   "note": "For every linear map: the iterates, the residuals, the stopping rules and the abort (C69_iterates). For dense and sparse Hermitian definite matrices: the solution is within the tolerance (C69_solves, C69_sparse). Numbers are those of a field with conjugation, without rounding; square root, modulus and order are parameters. Findings: maxiter steps asked for give maxiter+1 steps; the default counts the first dimension of b, not its elements; the header declares cgs(RSparse, CTensor) which no source file defines, and does not declare cgs(CSparse, CTensor) which cgs_sp_z.cc defines."
  },
  {
   "property": "C70",
   "status": "partial",
   "theorems": [
    "C70_power",
    "C70_eigenvector",
    "C70_hermitian_real",
    "C70_rejects",
    "C70_complex_refuted",
    "C70_map",
    "C70_sparse_right",
    "C70_sparse_left_refuted",
    "C70_sparse_rejects",
    "C70_converges",
    "C70_converges_sparse",
    "C70_unchanged_refuted",
    "C70_symmetric",
    "C70_symmetric_sparse"
   ],
   "note": "Proved for real and complex dense matrices (C70_power), for sparse matrices (C70_sparse_right) and for any linear map (C70_map) without rounding, assuming no power of the matrix takes the start to a vector of zero norm. C70_converges and C70_converges_sparse: over the real numbers, for a start in the span of orthonormal eigenvectors with one dominant eigenvalue, the errors of number and vector after j steps are at most a constant of the start times q^(2j), and a small residual means an eigenvalue within the tolerance. C70_symmetric and C70_symmetric_sparse: the same for every symmetric matrix with a dominant simple eigenvalue and every start not orthogonal to its eigenvector, with nothing supposed about the other eigenvectors (spectral theorem). Refuted: a number that stops changing need not be an eigenvalue (C70_unchanged_refuted); for complex matrices the number returned is the conjugate of the eigenvalue (C70_complex_refuted, in general C70_eigenvector; real for Hermitian matrices, C70_hermitian_real); eig_power_left of sparse matrices always aborts (C70_sparse_left_refuted)."
  },
  {
   "property": "C71",
   "status": "partial",
   "theorems": [
    "C71_svd",
    "C71_svd_both",
    "C71_block_svd",
    "C71_rejects",
    "C71_failure_refuted"
   ],
   "note": "svd over the documented output and memory effects of xGESVD: shapes, job letters, leading dimensions, both modes, all choices of outputs; composed with block_svd (C53). Refuted: info is ignored, so a failure to converge is returned as a result. Missing: xGESVD itself, the workspace query, rounding."
  },
  {
   "property": "C72",
   "status": "partial",
   "theorems": [
    "C72_hermitian",
    "C72_upper",
    "C72_rejects",
    "C72_failure_refuted"
   ],
   "note": "eig_sym over the documented output and memory effects of xSYEV/xHEEV, for Hermitian matrices and for the upper triangle of others. Refuted: info is ignored. Missing: the library itself, the workspace query, rounding."
  },
  {
   "property": "C73",
   "status": "partial",
   "theorems": [
    "C73_dense",
    "C73_map",
    "C73_sparse",
    "C73_eigenpairs",
    "C73_map_eigenpairs",
    "C73_sparse_eigenpairs",
    "C73_rejects",
    "C73_map_rejects",
    "C73_selector_refuted",
    "C73_short_map_refuted",
    "C73_small_map_partial",
    "C73_protocol",
    "C73_protocol_refuses",
    "C73_not_symmetric_refuted",
    "C73_tall_refuted"
   ],
   "note": "Proved for every library, dialogue and operator with n > 4; with the library's contract the results are eigenpairs. Partial: for n <= 4 the vectors are left ones and real parts (C73_small_map_partial); refuted: real matrices that are not symmetric, the order 6, operators that are not square."
  },
  {
   "property": "C74",
   "status": "partial",
   "theorems": [
    "C74_complete",
    "C74_stays",
    "C74_ended",
    "C74_exists",
    "C74_progress",
    "C74_not_a_directory",
    "C74_mixed_refuted",
    "C74_lost_refuted"
   ],
   "note": "Proved when no two processes run the same job at the same time (they may one after the other): C74_complete, C74_stays, C74_ended, for every interleaving and every crash point; C74_progress and C74_not_a_directory hold without that. With two processes of the same job at the same time the property fails: C74_mixed_refuted (a record with the output of both, reported as written) and C74_lost_refuted (a process ends normally and its record is gone). Modelled at the level of system calls; a crash of the machine (loss of buffers) is not modelled."
  },
  {
   "property": "C75",
   "status": "partial",
   "theorems": [
    "C75_any_file",
    "C75_load",
    "C75_load_appended",
    "C75_numbers",
    "C75_no_records_refuted",
    "C75_name_sdf_refuted",
    "C75_no_name_refuted",
    "C75_no_dimensions_refuted",
    "C75_big_endian_refuted",
    "C75_vectors_refuted",
    "C75_cut_refuted"
   ],
   "note": "Proved on little-endian machines for all sequences of dumps and sessions with at least one record, names of ASCII characters that are not empty and do not start with sdf, and tensors with at least one dimension. C75_any_file: whatever the bytes, the reader returns arrays that have as many elements as their shapes say, or raises an exception. Refuted: names, tensors and files outside that, contents of vectors of tensors, big-endian readers, cut files. numpy and UTF-8 are modelled only as far as the reader uses them."
  },
  {
   "property": "C76",
   "status": "partial",
   "theorems": [
    "C76_load_dataset",
    "C76_raises",
    "C76_load_sorted",
    "C76_leftover_refuted"
   ],
   "note": "Proved for directories that hold complete files with the names and shapes of the first, and for sort fields that are vectors of real numbers, list.sort being any stable sort. Refuted for the directories that killed jobs leave (a state reachable in the model of C74)."
  },
  {
   "property": "C77",
   "status": "partial",
   "theorems": [
    "C77_copies_refuted",
    "C77_value_refuted",
    "C77_leak_refuted",
    "C77_reading_partial",
    "C77_ends_partial",
    "C77_locked_partial",
    "C77_locked_ends_partial"
   ],
   "note": "Refuted as stated, because the counter is not atomic: two threads that copy the same vector can free it (C77_copies_refuted), change each other's values (C77_value_refuted) or leak memory (C77_leak_refuted). Proved for every schedule when the threads only read elements and sizes of what they share and use vectors of their own otherwise: C77_reading_partial, C77_ends_partial. Proved for every schedule, copies of shared vectors included, when the calling program holds one mutex during every operation: C77_locked_partial, C77_locked_ends_partial. The library itself takes no such lock. Memory of the caller is not in this model."
  },
  {
   "property": "C78",
   "status": "partial",
   "theorems": [
    "C78_vector",
    "C78_tensor",
    "C78_determines",
    "C78_sparse",
    "C78_complex",
    "C78_matrix_form",
    "C78_matrix_form_vector",
    "C78_matrix_form_determines",
    "C78_matrix_form_refuses",
    "C78_matrix_form_empty_refuted"
   ],
   "note": "Proved for every text of the elements; that the text determines the tensor needs element texts that are not empty and contain no comma followed by a space (no line break either, for matrix_form), and dimensions in decimal. Refuted: matrix_form of a matrix or vector without rows writes only the closing bracket (C78_matrix_form_empty_refuted). Field widths and failing streams are not modelled."
  },
  {
   "property": "C79",
   "status": "partial",
   "theorems": [
    "C79_parts",
    "C79_split_join",
    "C79_join_split",
    "C79_from_real",
    "C79_short_refuted",
    "C79_shapes_refuted",
    "C79_functions",
    "C79_index_to_tensor"
   ],
   "note": "Proved for all tensors; refuted: to_complex(r, i) does not check that the dimensions agree and reads out of bounds if i has fewer elements (C79_short_refuted), or ignores its shape (C79_shapes_refuted)."
  },
  {
   "property": "C80",
   "status": "proved",
   "theorems": [
    "C80_job_record",
    "C80_whole_run",
    "C80_long_name_refuted"
   ],
   "note": "Names of at most 63 characters without NUL are loaded back; longer names are cut, as the statement says (C80_long_name_refuted shows it). Values are doubles given by their bits."
  },
  {
   "property": "C81",
   "status": "partial",
   "theorems": [
    "C81_linspace_partial",
    "C81_integers",
    "C81_last_refuted",
    "C81_largest_refuted",
    "C81_wide_refuted"
   ],
   "note": "Proved for 1 < n <= 2^53 and |min|, |max|, |max-min| <= 2^1024 - 2^975, which is all but the largest doubles: finite, first number is min, monotone, error bound (C81_linspace_partial); exact for integers (C81_integers). The last number need not be max and can lie outside the interval (C81_last_refuted), with the largest double it can overflow (C81_largest_refuted); if max - min overflows the first number is a NaN and the others are infinite (C81_wide_refuted)."
  },
  {
   "property": "C82",
   "status": "partial",
   "theorems": [
    "C82_sum",
    "C82_sum_finite",
    "C82_sum_integers",
    "C82_sum_complex",
    "C82_scprod",
    "C82_scprod_integers",
    "C82_mean",
    "C82_norm2_partial",
    "C82_norm2_refuted",
    "C82_max",
    "C82_min",
    "C82_max_nan_refuted",
    "C82_norm0",
    "C82_norm0_nan_refuted",
    "C82_norminf_rows",
    "C82_norminf",
    "C82_sort_partial",
    "C82_sort_nan_refuted"
   ],
   "note": "Error bounds for sum, scprod, mean, norm2 and matrix_norminf for all sizes and all doubles; finiteness, exactness on integers; complete description of max, min, norm0 and matrix_norminf with NaNs. Refuted: norm2 over- and underflows (C82_norm2_refuted), NaNs are lost by norm0, norminf, max and min (C82_norm0_nan_refuted, C82_max_nan_refuted), sort with NaNs (C82_sort_nan_refuted). Complex scalar products in doubles are C90_scprod_complex."
  },
  {
   "property": "C83",
   "status": "proved",
   "theorems": [
    "C83_kept_pointers",
    "C83_copy_refuted",
    "C83_stale_refuted",
    "C83_mixed_ends_refuted"
   ],
   "note": "C83_kept_pointers for all programs; the refuted theorems show what happens to pointers kept too long (C83_copy_refuted, C83_stale_refuted) and when ends are mixed (C83_mixed_ends_refuted)."
  },
  {
   "property": "C84",
   "status": "partial",
   "theorems": [
    "C84_no_faults",
    "C84_reported_partial",
    "C84_aborted",
    "C84_full_disk_refuted",
    "C84_unwritable_refuted"
   ],
   "note": "C84_reported_partial: if the file opens and the session returns, all of it is in the file except at most the elements of the last tensor dumped; C84_aborted: otherwise an exception, a prefix of the file, and in paranoid mode the previous file; C84_no_faults ties the model to M_Sdf. Refuted for the last write (C84_full_disk_refuted, every mode and all records) and for files that cannot be opened (C84_unwritable_refuted)."
  },
  {
   "property": "C85",
   "status": "partial",
   "theorems": [
    "C85_out_of_memory_does_nothing_partial",
    "C85_reference_counts_exact_partial",
    "C85_values_partial",
    "C85_never_throws",
    "C85_plenty",
    "C85_failed_resize_refuted",
    "C85_failed_resize_shared_refuted"
   ],
   "note": "For all histories in which no resize runs out of memory: C85_out_of_memory_does_nothing_partial (an operation that throws changes nothing, one that returns does what it does with plenty of memory), C85_reference_counts_exact_partial (counts exact, nothing released twice; at most one array lost per exception), C85_values_partial (observations and values are those of the program without the operations that threw). C85_never_throws: operations that need no memory. C85_plenty ties the model to that of C01-C03. Refuted for resize: C85_failed_resize_refuted (every history), C85_failed_resize_shared_refuted."
  },
  {
   "property": "C86",
   "status": "partial",
   "theorems": [
    "C86_opens_partial",
    "C86_close_undoes_open_partial",
    "C86_unwritable_refuted",
    "C86_no_stdin_refuted",
    "C86_waits"
   ],
   "note": "C86_opens_partial: with descriptor 0 in use, the file is obtained no later than the first attempt made when the lock file can be opened and the lock is free; C86_close_undoes_open_partial: closing gives back descriptor and lock; C86_waits: never while somebody else has it. Refuted: C86_unwritable_refuted (no lock file can be created: never returns), C86_no_stdin_refuted (descriptor 0 free: never returns, whatever the others do, and keeps the lock)."
  },
  {
   "property": "C87",
   "status": "partial",
   "theorems": [
    "C87_any_file_partial",
    "C87_load_partial",
    "C87_load_appended_partial",
    "C87_unnamed_refuted",
    "C87_unnamed_partial",
    "C87_names",
    "C87_sdf_names_refuted",
    "C87_truncated_refuted",
    "C87_number_after_vector_refuted",
    "C87_vector_after_matrix_refuted",
    "C87_vector_after_numbers_refuted",
    "C87_matrix_after_vectors_refuted"
   ],
   "note": "C87_load_partial, C87_load_appended_partial: for identifiers not beginning with sdf and values that fit together (real and complex ones may be mixed), the struct holds exactly what was written in one session or several; C87_unnamed_partial: unnamed values with elements are passed over. C87_any_file_partial: whatever the bytes, the reader returns arrays that are complete, or reports an error (a file that ends within a length is taken for an error, by the model). Not covered because false: C87_unnamed_refuted (an unnamed value without elements ends the reading silently), C87_sdf_names_refuted and C87_names (names the library accepts make the file unreadable), C87_truncated_refuted (a file cut within a vector loads shortened). The contents of vectors of tensors are not loaded. Values of different shapes under one name: C87_number_after_vector_refuted and C87_vector_after_matrix_refuted (the field is the same as for numbers or columns written one by one, no error), C87_vector_after_numbers_refuted and C87_matrix_after_vectors_refuted (the file cannot be read); other combinations of shapes are not stated."
  },
  {
   "property": "C88",
   "status": "partial",
   "theorems": [
    "C88_randseed_partial",
    "C88_randseed_32bits_partial",
    "C88_randseed_refuted",
    "C88_randseed_text_refuted",
    "C88_urandom",
    "C88_urandom_differ",
    "C88_seeds_differ",
    "C88_never_stuck",
    "C88_clock_refuted",
    "C88_integers",
    "C88_long_refuted",
    "C88_other_integers_refuted"
   ],
   "note": "C88_randseed_partial, C88_randseed_32bits_partial: RANDSEED gives the published sequence for every number that is an int. C88_urandom, C88_urandom_differ, C88_seeds_differ, C88_never_stuck, C88_integers hold in full. Missing because false: C88_randseed_refuted (numbers beyond int are undefined), C88_randseed_text_refuted (a text without digits is taken for 0), C88_clock_refuted (the clock as a seed), C88_long_refuted (rand<long>() is never negative), C88_other_integers_refuted (other integer types are always 0)."
  },
  {
   "property": "C89",
   "status": "partial",
   "theorems": [
    "C89_complex_sparse_partial",
    "C89_random",
    "C89_random_32bits",
    "C89_continues",
    "C89_complex_partial",
    "C89_complex_refuted",
    "C89_sparse",
    "C89_density_zero_refuted"
   ],
   "note": "C89_random, C89_random_32bits, C89_continues and C89_sparse hold for all seeds, histories, shapes and positive densities. Complex tensors: C89_complex_partial (up to the order the compiler chooses); that the order is not determined is C89_complex_refuted. C89_density_zero_refuted: NaN for density 0. C89_complex_sparse_partial: CSparse::random, for any std::abs that gives finite numbers not below the parts, up to the same order."
  },
  {
   "property": "C90",
   "status": "proved",
   "theorems": [
    "C90_fold",
    "C90_mmult",
    "C90_foldin",
    "C90_complex",
    "C90_rejects",
    "C90_scprod_complex",
    "C90_sparse",
    "C90_sparse_complex",
    "C90_order_refuted",
    "C90_sparse_infinite_refuted"
   ],
   "note": "Proved for every BLAS that forms each product once and adds them in any order (C90_fold, C90_mmult, C90_foldin, C90_complex, C90_rejects, C90_scprod_complex, C90_sparse, C90_sparse_complex). Two stronger statements a user may expect are false and shown so: the result does not depend on the BLAS (C90_order_refuted), and a sparse product agrees with the dense one on infinities (C90_sparse_infinite_refuted). Strassen-like algorithms, zgemm3m and wider accumulators, and dimensions beyond the 32-bit integers of BLAS, are not covered."
  },
  {
   "property": "C91",
   "status": "proved",
   "theorems": [
    "C91_values",
    "C91_others",
    "C91_no_leak",
    "C91_element_refuted"
   ],
   "note": "Proved for all histories of 23 kinds of statements (C91_values, C91_others, C91_no_leak). t op= t[k] is left out of the values because it does depend on sharing (C91_element_refuted). Ranges of negative size, rank-specific accessors (at(i,j)) and library functions such as fold or svd are not statements of this model; they are modelled on values elsewhere."
  },
  {
   "property": "C92",
   "status": "partial",
   "theorems": [
    "C92_words",
    "C92_ulong",
    "C92_int_partial",
    "C92_even_refuted",
    "C92_double",
    "C92_observed"
   ],
   "note": "Proved for the generators, unsigned long, double and, when the width fits an int, int (C92_words, C92_ulong, C92_int_partial, C92_double, C92_observed). Exactly equal shares are false (C92_even_refuted). rand<int> over more than 2^31 values and rand<long> misbehave (C50)."
  },
  {
   "property": "C93",
   "status": "partial",
   "theorems": [
    "C93_load_partial",
    "C93_variable_partial",
    "C93_nested_refuted",
    "C93_nested_other_refuted",
    "C93_mismatch_refuted",
    "C93_avoided_empty_refuted",
    "C93_order_refuted",
    "C93_avoid_refuted"
   ],
   "note": "C93_load_partial, C93_variable_partial: for a plain name or a path that ends with a slash, records as in C87 and avoided values with elements, the struct holds exactly the values written, in the order of the listing. Not covered because false: C93_nested_refuted, C93_nested_other_refuted (other paths), C93_mismatch_refuted (values of other sizes remove the field), C93_avoided_empty_refuted, C93_order_refuted (the order is that of the names, not of the jobs), C93_avoid_refuted (later loads lose the field)."
  },
  {
   "property": "C94",
   "status": "partial",
   "theorems": [
    "C94_exists_partial",
    "C94_exists_refuted",
    "C94_delete",
    "C94_make_directory",
    "C94_isdir_partial",
    "C94_isdir_refuted",
    "C94_rename_frame",
    "C94_rename_partial",
    "C94_rename_keeps_partial",
    "C94_rename_readonly_refuted",
    "C94_rename_lost_refuted"
   ],
   "note": "C94_delete, C94_make_directory, C94_rename_frame in full; C94_rename_partial and C94_rename_keeps_partial for files the process may read and write; C94_exists_partial and C94_isdir_partial give what the answers mean. The rest is false: C94_exists_refuted, C94_isdir_refuted, C94_rename_readonly_refuted, C94_rename_lost_refuted."
  },
  {
   "property": "C95",
   "status": "proved",
   "theorems": [
    "C95_dsortr",
    "C95_dsortr_alone",
    "C95_dsortr_nan",
    "C95_dsortr_nan_order_refuted",
    "C95_dsortr_unknown",
    "C95_dsesrt",
    "C95_zsortc"
   ],
   "note": "The order is that of the values as reals, with infinities at the ends; for NaNs only the rearrangement holds (refuted order). zsortc takes the magnitude from dlapy2 of LAPACK, which is a parameter. Single precision is the same text and not modelled separately."
  },
  {
   "property": "C96",
   "status": "partial",
   "theorems": [
    "C96_dsgets",
    "C96_iteration_partial",
    "C96_vectors",
    "C96_values_partial",
    "C96_values_any_partial",
    "C96_values_ties_refuted",
    "C96_order_refuted",
    "C96_info_refuted"
   ],
   "note": "C96_dsgets and C96_vectors are for all codes, both ends included; C96_iteration_partial, C96_values_partial and C96_values_any_partial are for LM, SM, LA and SA, the codes that the library uses (the exit with BE is modelled, not proved). Values without vectors: proved to be wanted ones, those with the smallest relative estimates; to be the converged ones when all have converged and nothing ties, and refuted with ties; if not all have converged, each value given back has converged or has a relative estimate, as computed, that is not larger than that of a converged one. Not modelled: how the Ritz values and estimates come about (dsaitr, dseigt, dsteqr)."
  },
  {
   "property": "C97",
   "status": "partial",
   "theorems": [
    "C97_checks",
    "C97_real",
    "C97_complex_partial",
    "C97_all_but_one_refuted",
    "C97_work_real",
    "C97_work_complex"
   ],
   "note": "C97_checks, C97_real, C97_work_real and C97_work_complex are for all parameters; of complex problems C97_complex_partial says that all calls are accepted but the second with k = n - 1, and C97_all_but_one_refuted that then no run ends with converged values. Integers of 32 bits that overflow are the subject of C103_arpack and C103_arpack_overflow."
  },
  {
   "property": "C98",
   "status": "partial",
   "theorems": [
    "C98_values_partial",
    "C98_counter_partial",
    "C98_any_number_refuted"
   ],
   "note": "C98_values_partial and C98_counter_partial hold for all programs that never have more than 2^31 - 1 vectors alive; C98_any_number_refuted shows that beyond it the property is false of the code. So C01-C03, which take the counter without bound, hold of the int counter under that condition."
  },
  {
   "property": "C99",
   "status": "partial",
   "theorems": [
    "C99_factorization_partial",
    "C99_restart_partial",
    "C99_estimate_partial",
    "C99_eigenvalue_partial",
    "C99_unsymmetric_refuted"
   ],
   "note": "Proved with real numbers instead of doubles: C99_factorization_partial (all histories of restarts and shifts), C99_restart_partial (what the shifts do to the first vector), C99_estimate_partial, C99_eigenvalue_partial (every symmetric matrix has an orthonormal basis of eigenvectors, proved here, and a Ritz value whose estimate passes the test is as close to one of their eigenvalues as the tolerance says). Missing: rounding, with the threshold epsmch of dsapps, which is 0 in the theorems; LAPACK's dlartg and dstqrb are external; the choice of the shifts is in C96. C99_unsymmetric_refuted: false of matrices that are not symmetric."
  },
  {
   "property": "C100",
   "status": "partial",
   "theorems": [
    "C100_factorization_partial",
    "C100_restart_partial",
    "C100_estimate_partial",
    "C100_eigenvalue_partial",
    "C100_hermitian_partial",
    "C100_split_refuted"
   ],
   "note": "Proved with complex numbers instead of doubles: C100_factorization_partial (all histories of restarts; Hermitian matrix with real shifts, or at most one shift in each restart, or no element dropped because only its real part is zero), C100_restart_partial, C100_estimate_partial, C100_eigenvalue_partial (given an orthonormal basis of eigenvectors), C100_hermitian_partial (Hermitian matrices, which have such a basis: there is a real eigenvalue as close as the tolerance says). Missing: rounding, with the thresholds ulp and smlnum, which are 0 in these theorems; LAPACK's zlartg and zlahqr are external; the choice of the shifts is in C101. C100_split_refuted: false of general complex matrices with two shifts in a restart, for all small thresholds."
  },
  {
   "property": "C101",
   "status": "partial",
   "theorems": [
    "C101_zngets",
    "C101_iteration_partial",
    "C101_vectors",
    "C101_values_partial",
    "C101_values_any_partial",
    "C101_values_ties_refuted",
    "C101_zero_shift_refuted"
   ],
   "note": "Proved for all inputs that are numbers: C101_zngets, C101_iteration_partial (the end of an iteration: places, counts, codes, shifts, and that the values in front have the smallest relative estimates), C101_vectors (the values with eigenvectors), C101_values_partial (without them, if no two values are wished the same), C101_values_any_partial (the same when not all have converged). C101_values_ties_refuted: with ties it may be a value that has not converged. C101_zero_shift_refuted: a value with estimate zero can become a shift once a wanted value has converged. Missing: NaN; the vectors themselves; ztrsen and dlapy2 are external."
  },
  {
   "property": "C102",
   "status": "partial",
   "theorems": [
    "C102_safe",
    "C102_solver",
    "C102_closure",
    "C102_released_partial",
    "C102_eigs_never_released",
    "C102_released_refuted",
    "C102_kept_function_refuted",
    "C102_thrown_safe",
    "C102_thrown_released_partial",
    "C102_thrown_refuted"
   ],
   "note": "C102_safe, C102_solver, C102_closure hold for all histories; C102_released_partial: all memory is given back in programs that do not call eigs with an operator. C102_released_refuted, C102_eigs_never_released: eigs with a sparse matrix leaks its operator and with it the memory of the matrix. C102_kept_function_refuted: a FunctionMap made from a temporary dangles. Exceptions thrown by the function: C102_thrown_safe (nothing else changes, later calls stay safe), C102_thrown_released_partial (no vector stays), C102_thrown_refuted (the operator of the solver stays for ever). Missing: exceptions for lack of memory; the temporaries of the solvers are not modelled."
  },
  {
   "property": "C103",
   "status": "partial",
   "theorems": [
    "C103_any_blas",
    "C103_fold",
    "C103_fold_refuted",
    "C103_solve",
    "C103_solve_rejects",
    "C103_solve_refuted",
    "C103_solve_square_refuted",
    "C103_svd",
    "C103_svd_refuted",
    "C103_arpack",
    "C103_arpack_overflow",
    "C103_arpack_refuted",
    "C103_arpack_cut_refuted",
    "C103_eig",
    "C103_eig_z",
    "C103_eig_sym"
   ],
   "note": "C103_any_blas, C103_fold: contractions of tensors whose numbers of elements fit in an integer give BLAS the true sizes; C103_solve, C103_solve_rejects, C103_svd, C103_arpack the same for solve, svd and the constructor of ARPACK problems; C103_eig, C103_eig_z, C103_eig_sym: these stop for every matrix whose sizes are not integers of LAPACK, because the size is compared after its conversion; C103_arpack_overflow: exactly when arpack_holds fails a computation of its sizes overflows. For larger ones refuted, for every number of bits: C103_fold_refuted, C103_solve_refuted, C103_solve_square_refuted, C103_svd_refuted, C103_arpack_refuted, C103_arpack_cut_refuted. Missing: expm and the block solvers, which call these, the sizes of workspaces, and the integers inside of the libraries."
  },
  {
   "property": "C104",
   "status": "partial",
   "theorems": [
    "C104_sort_1d_partial",
    "C104_other_refuted"
   ],
   "note": "C104_sort_1d_partial: all structs whose fields have the same number of entries. C104_other_refuted: one field with another number is an error, for every such struct. Numbers to sort by are finite and real (NaN and complex ones are not modelled)."
  },
  {
   "property": "C105",
   "status": "partial",
   "theorems": [
    "C105_grid_partial",
    "C105_rows_refuted",
    "C105_rows_witness_refuted",
    "C105_steps_refuted",
    "C105_one_x_refuted",
    "C105_one_y_refuted"
   ],
   "note": "C105_grid_partial: all grids with at least two values of each parameter whose steps of y are more than half of the first one, given the rows or with as many x as y, in exact arithmetic. Refuted for the rest: C105_rows_refuted (every grid that is not square, without rows) with C105_rows_witness_refuted, C105_steps_refuted, C105_one_x_refuted, C105_one_y_refuted. Missing: rounding of the key; parameters given as matrices."
  },
  {
   "property": "C106",
   "status": "partial",
   "theorems": [
    "C106_file",
    "C106_round_trip_partial",
    "C106_same_values",
    "C106_exchange_refuted",
    "C106_matlab_refuted",
    "C106_matlab_real_refuted",
    "C106_cut_refuted"
   ],
   "note": "C106_file, C106_same_values: all values, names and lengths. C106_round_trip_partial: size_t only below 2^53, as in C39. Refuted: C106_exchange_refuted (every file, both ways), C106_matlab_refuted and C106_matlab_real_refuted (every file that does not start with a tensor without indices or with more than 127), C106_cut_refuted. Missing: the modes of opening and crash points, which are those of C39-C43; I/O errors."
  },
  {
   "property": "C107",
   "status": "partial",
   "theorems": [
    "C107_toc_partial",
    "C107_toc_since_partial",
    "C107_not_negative_partial",
    "C107_order_partial",
    "C107_set_back_refuted",
    "C107_no_tic_refuted",
    "C107_late_refuted"
   ],
   "note": "C107_toc_partial, C107_toc_since_partial: all programs and moments before 2106 (32 bits of seconds), if the clock is not set back; C107_not_negative_partial, C107_order_partial: the same without the accuracy, for 52 bits of seconds. Refuted: C107_set_back_refuted, C107_no_tic_refuted, C107_late_refuted (from 2514 on a microsecond can be measured as zero). Missing: machines without gettimeofday, threads."
  }
 ]
}