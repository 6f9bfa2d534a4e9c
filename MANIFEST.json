{
 "claims": [
  {
   "property": "C01",
   "status": "proved",
   "theorems": [
    "C01_rank",
    "C01_merge",
    "C01_remove",
    "C01_cat",
    "C01_replace",
    "C01_same",
    "C01_unique"
   ],
   "note": ""
  },
  {
   "property": "C02",
   "status": "proved",
   "theorems": [
    "C02_diff_then_add",
    "C02_add_then_diff",
    "C02_frame",
    "C02_equality",
    "C02_equality_order",
    "C02_vectors",
    "C02_vectors_mixed",
    "C02_opposite",
    "C02_scale"
   ],
   "note": ""
  },
  {
   "property": "C03",
   "status": "proved",
   "theorems": [
    "C03_for_each",
    "C03_contains_is_box"
   ],
   "note": ""
  },
  {
   "property": "C04",
   "status": "proved",
   "theorems": [
    "C04_first",
    "C04_last",
    "C04_both"
   ],
   "note": ""
  },
  {
   "property": "C05",
   "status": "proved",
   "theorems": [
    "C05_equality",
    "C05_size",
    "C05_unbounded_refuted"
   ],
   "note": "Holds when the number of elements fits in size_t; C05_unbounded_refuted shows that the bound is needed (size() wraps)."
  },
  {
   "property": "C06",
   "status": "proved",
   "theorems": [
    "C06_distance_then_at",
    "C06_at_then_distance"
   ],
   "note": ""
  },
  {
   "property": "C07",
   "status": "proved",
   "theorems": [
    "C07_restrict",
    "C07_restrict_outside",
    "C07_product",
    "C07_select",
    "C07_remove_dims",
    "C07_replace_dim"
   ],
   "note": ""
  },
  {
   "property": "C08",
   "status": "proved",
   "theorems": [
    "C08_iterator_laws",
    "C08_incr_decr",
    "C08_order",
    "C08_range_for",
    "C08_strided_laws",
    "C08_strided_range_for",
    "C08_strided_difference",
    "C08_strided_difference_refuted",
    "C08_minimal_offset_refuted"
   ],
   "note": "Holds for DiscreteDomain iterators for every offset but PTRDIFF_MIN (undefined, C08_minimal_offset_refuted). For strided iterators the difference is scaled by the stride (C08_strided_difference, C08_strided_difference_refuted)."
  },
  {
   "property": "C09",
   "status": "proved",
   "theorems": [
    "C09_contains",
    "C09_distance",
    "C09_at_onto",
    "C09_cut_first",
    "C09_cut_last",
    "C09_for_each",
    "C09_back",
    "C09_equality",
    "C09_empty_contains_refuted",
    "C09_equality_refuted"
   ],
   "note": "contains needs a non-empty domain (C09_empty_contains_refuted); == distinguishes some equal sets (C09_equality_refuted)."
  },
  {
   "property": "C10",
   "status": "proved",
   "theorems": [
    "C10_lower_bound",
    "C10_binary_search",
    "C10_contains",
    "C10_distance",
    "C10_at_onto",
    "C10_for_each",
    "C10_equality",
    "C10_unsorted_refuted"
   ],
   "note": ""
  },
  {
   "property": "C11",
   "status": "proved",
   "theorems": [
    "C11_bijection",
    "C11_address",
    "C11_iteration_order",
    "C11_strided_order",
    "C11_sparse_order",
    "C11_access_by_vector"
   ],
   "note": ""
  },
  {
   "property": "C12",
   "status": "proved",
   "theorems": [
    "C12_slices",
    "C12_writes",
    "C12_no_aliasing"
   ],
   "note": ""
  },
  {
   "property": "C13",
   "status": "proved",
   "theorems": [
    "C13_histories",
    "C13_moves",
    "C13_self_move_refuted"
   ],
   "note": "Histories without move assignment of a chunk to itself; that one frees the buffer (C13_self_move_refuted)."
  },
  {
   "property": "C14",
   "status": "proved",
   "theorems": [
    "C14_blocks",
    "C14_total"
   ],
   "note": ""
  },
  {
   "property": "C15",
   "status": "proved",
   "theorems": [
    "C15_distribution"
   ],
   "note": ""
  },
  {
   "property": "C16",
   "status": "proved",
   "theorems": [
    "C16_any_order",
    "C16_in_order",
    "C16_initial_value_refuted"
   ],
   "note": "The initial value must be neutral (C16_initial_value_refuted)."
  },
  {
   "property": "C17",
   "status": "proved",
   "theorems": [
    "C17_reducers",
    "C17_bxor_rejected",
    "C17_signed_sum",
    "C17_into_chunk",
    "C17_floating_sum_refuted",
    "C17_signed_sum_refuted"
   ],
   "note": "Unsigned types, and signed sums that fit in any order. C17_floating_sum_refuted and C17_signed_sum_refuted show why."
  },
  {
   "property": "C18",
   "status": "proved",
   "theorems": [
    "C18_scan",
    "C18_exclusive_in_place_refuted"
   ],
   "note": "C18_exclusive_in_place_refuted: an exclusive scan in place is wrong."
  },
  {
   "property": "C19",
   "status": "proved",
   "theorems": [
    "C19_called_once",
    "C19_for_each",
    "C19_transform",
    "C19_fill"
   ],
   "note": ""
  },
  {
   "property": "C20",
   "status": "proved",
   "theorems": [
    "C20_copy",
    "C20_deepcopy"
   ],
   "note": ""
  },
  {
   "property": "C21",
   "status": "proved",
   "theorems": [
    "C21_history",
    "C21_first_wins",
    "C21_end_clears",
    "C21_pass_through",
    "C21_same_name_refuted",
    "C21_nested_guards_refuted",
    "C21_nested_leftover_refuted",
    "C21_unguarded_refuted"
   ],
   "note": "Names are distinct and guards do not nest; the _refuted theorems show what happens otherwise."
  },
  {
   "property": "C22",
   "status": "proved",
   "theorems": [
    "C22_round_trip",
    "C22_view"
   ],
   "note": ""
  },
  {
   "property": "C23",
   "status": "proved",
   "theorems": [
    "C23_geometry",
    "C23_throws_iff_too_long"
   ],
   "note": ""
  },
  {
   "property": "C24",
   "status": "proved",
   "theorems": [
    "C24_history",
    "C24_ends_disjoint"
   ],
   "note": ""
  },
  {
   "property": "C25",
   "status": "proved",
   "theorems": [
    "C25_content",
    "C25_print",
    "C25_full"
   ],
   "note": ""
  },
  {
   "property": "C26",
   "status": "proved",
   "theorems": [
    "C26_options_kept",
    "C26_returns_temporary_refuted",
    "C26_torn_read_refuted"
   ],
   "note": "The options in force are right after every interleaving; the values returned by set_print_options and get_print_options under concurrency are not (C26_returns_temporary_refuted, C26_torn_read_refuted)."
  },
  {
   "property": "C27",
   "status": "proved",
   "theorems": [
    "C27_init",
    "C27_ghosted"
   ],
   "note": ""
  },
  {
   "property": "C28",
   "status": "proved",
   "theorems": [
    "C28_init",
    "C28_ghosted"
   ],
   "note": ""
  },
  {
   "property": "C29",
   "status": "proved",
   "theorems": [
    "C29_periodic",
    "C29_injective",
    "C29_init",
    "C29_ghosted",
    "C29_long_period_refuted",
    "C29_length_refuted"
   ],
   "note": "Periods up to 2^31 (C29_long_period_refuted)."
  },
  {
   "property": "C30",
   "status": "proved",
   "theorems": [
    "C30_uniform_knots",
    "C30_eval_basis",
    "C30_same_as_non_uniform"
   ],
   "note": ""
  },
  {
   "property": "C31",
   "status": "proved",
   "theorems": [
    "C31_eval_basis"
   ],
   "note": ""
  },
  {
   "property": "C32",
   "status": "proved",
   "theorems": [
    "C32_uniform_deriv",
    "C32_non_uniform_deriv"
   ],
   "note": ""
  },
  {
   "property": "C33",
   "status": "proved",
   "theorems": [
    "C33_uniform_n_derivs",
    "C33_uniform_columns",
    "C33_non_uniform_n_derivs",
    "C33_non_uniform_columns",
    "C33_degree_12",
    "C33_unbounded_refuted"
   ],
   "note": "Non-uniform: degree!/(degree-n)! fits in an int, as is so up to degree 12 (C33_degree_12); C33_unbounded_refuted otherwise."
  },
  {
   "property": "C34",
   "status": "proved",
   "theorems": [
    "C34_non_uniform_cell",
    "C34_non_uniform_far",
    "C34_uniform_cell",
    "C34_double_precision"
   ],
   "note": ""
  },
  {
   "property": "C35",
   "status": "proved",
   "theorems": [
    "C35_knots",
    "C35_unsorted"
   ],
   "note": ""
  },
  {
   "property": "C36",
   "status": "proved",
   "theorems": [
    "C36_open",
    "C36_periodic",
    "C36_few_cells_refuted",
    "C36_uniform",
    "C36_uniform_greville",
    "C36_high_degree_refuted",
    "C36_uniform_knots",
    "C36_knots",
    "C36_knots_square"
   ],
   "note": "Periodic: at least as many cells as the degree (C36_few_cells_refuted). Uniform with Greville ends: degree at most 8 (C36_high_degree_refuted)."
  },
  {
   "property": "C37",
   "status": "proved",
   "theorems": [
    "C37_non_uniform",
    "C37_uniform",
    "C37_few_cells_refuted"
   ],
   "note": "Uniform, not periodic: at least as many cells as the degree (C37_few_cells_refuted)."
  },
  {
   "property": "C38",
   "status": "proved",
   "theorems": [
    "C38_round_trip",
    "C38_periodic_overflow_refuted"
   ],
   "note": "C38_periodic_overflow_refuted: sizes whose square overflows an int cannot be made."
  },
  {
   "property": "C39",
   "status": "proved",
   "theorems": [
    "C39_exact",
    "C39_residual",
    "C39_dropped_refuted",
    "C39_total"
   ],
   "note": "Exact unless entries below 1e-14 are dropped; C39_residual gives the error, C39_dropped_refuted an instance."
  },
  {
   "property": "C40",
   "status": "proved",
   "theorems": [
    "C40_chunks",
    "C40_solves",
    "C40_not_converged",
    "C40_no_column_refuted"
   ],
   "note": "At least one column (C40_no_column_refuted)."
  },
  {
   "property": "C41",
   "status": "proved",
   "theorems": [
    "C41_sparse",
    "C41_lapack",
    "C41_evaluates",
    "C41_constructs",
    "C41_builds",
    "C41_sparse_builds",
    "C41_greville_points",
    "C41_uniform_points",
    "C41_periodic_points",
    "C41_shifted_domain_refuted",
    "C41_derivs_domain",
    "C41_derivs_domain_refuted",
    "C41_graded_refuted",
    "C41_few_cells_refuted"
   ],
   "note": "The external solver is an argument, assumed exact. Periodic spaces need more cells than the degree (C41_few_cells_refuted). With LAPACK, points that suit the band and entries not below 1e-14."
  },
  {
   "property": "C42",
   "status": "proved",
   "theorems": [
    "C42_number",
    "C42_sound",
    "C42_exactly",
    "C42_empty_cell_refuted"
   ],
   "note": "Exactly, when no cell is empty; C42_empty_cell_refuted shows that a crowded cell after an empty one is not noticed."
  },
  {
   "property": "C43",
   "status": "proved",
   "theorems": [
    "C43_quadrature",
    "C43_homogeneous",
    "C43_total",
    "C43_periodic_shift",
    "C43_graded_refuted"
   ],
   "note": "Except for periodic non-uniform spaces with an offset, where the code ignores the offset: C43_periodic_shift says what is computed, C43_graded_refuted gives an instance."
  },
  {
   "property": "C44",
   "status": "proved",
   "theorems": [
    "C44_inside",
    "C44_periodic",
    "C44_period",
    "C44_outside",
    "C44_rules",
    "C44_batched",
    "C44_far_double_refuted",
    "C44_spaces"
   ],
   "note": "Over the reals; C44_far_double_refuted in binary64."
  },
  {
   "property": "C45",
   "status": "proved",
   "theorems": [
    "C45_deriv",
    "C45_first_deriv",
    "C45_deriv_batched",
    "C45_linear",
    "C45_constant",
    "C45_integrate",
    "C45_deriv_outside_refuted"
   ],
   "note": "Derivatives inside the domain (C45_deriv_outside_refuted)."
  },
  {
   "property": "C46",
   "status": "proved",
   "theorems": [
    "C46_interpolates",
    "C46_builds",
    "C46_periodic",
    "C46_evaluates",
    "C46_iterated",
    "C46_inside",
    "C46_wraps",
    "C46_derivative",
    "C46_outside_first",
    "C46_outside_second",
    "C46_constant",
    "C46_constant_periodic",
    "C46_batched",
    "C46_deriv_batched",
    "C46_integrate"
   ],
   "note": ""
  },
  {
   "property": "C47",
   "status": "proved",
   "theorems": [
    "C47_complex_forward",
    "C47_complex_backward",
    "C47_real_forward",
    "C47_real_backward",
    "C47_complex_round_trip",
    "C47_complex_round_trip_back",
    "C47_real_round_trip",
    "C47_real_round_trip_back",
    "C47_mesh",
    "C47_frequencies",
    "C47_steps",
    "C47_fourier_sum",
    "C47_phase_refuted",
    "C47_single_point_refuted",
    "C47_overflow_refuted"
   ],
   "note": "The transforms of KokkosFFT are arguments, assumed exact. FULL needs two points per dimension (C47_single_point_refuted)."
  },
  {
   "property": "C48",
   "status": "proved",
   "theorems": [
    "C48_factorial",
    "C48_factorial_max",
    "C48_ipow_unsigned",
    "C48_ipow",
    "C48_ipow_nonneg",
    "C48_modulo_double",
    "C48_sum",
    "C48_dot_product",
    "C48_min_max"
   ],
   "note": ""
  },
  {
   "property": "C49",
   "status": "proved",
   "theorems": [
    "C49_mirror",
    "C49_layout_right"
   ],
   "note": ""
  },
  {
   "property": "C50",
   "status": "proved",
   "theorems": [
    "C50_span_to_view_and_back",
    "C50_accepted_iff_same_addresses",
    "C50_strided_view"
   ],
   "note": ""
  },
  {
   "property": "C51",
   "status": "proved",
   "theorems": [
    "C51_life",
    "C51_rejected"
   ],
   "note": ""
  },
  {
   "property": "C52",
   "status": "proved",
   "theorems": [
    "C52_cell_in_range_refuted",
    "C52_cell_in_range_inside_refuted",
    "C52_cell_at_most_one_past"
   ],
   "note": "The index can equal ncells (C52_cell_in_range_refuted, C52_cell_in_range_inside_refuted). C52_cell_at_most_one_past gives the exact extent of the defect in binary64: index in [0, ncells], reached only with an offset below 2^-14, and position accurate to 2^-17."
  },
  {
   "property": "C53",
   "status": "proved",
   "theorems": [
    "C53_rows",
    "C53_entries",
    "C53_few_cells_refuted",
    "C53_fewer_cells_refuted"
   ],
   "note": "More cells than the degree; false otherwise (C53_few_cells_refuted, C53_fewer_cells_refuted)."
  },
  {
   "property": "C54",
   "status": "proved",
   "theorems": [
    "C54_inside",
    "C54_wraps",
    "C54_derivative",
    "C54_outside",
    "C54_batched",
    "C54_deriv_batched",
    "C54_integrate",
    "C54_one_dimension",
    "C54_two_dimensions"
   ],
   "note": ""
  },
  {
   "property": "C55",
   "status": "proved",
   "theorems": [
    "C55_interpolates",
    "C55_builds",
    "C55_periodic",
    "C55_evaluates",
    "C55_mixed_needed_refuted",
    "C55_third_hermite_only_refuted",
    "C55_inside",
    "C55_wraps",
    "C55_derivative",
    "C55_outside",
    "C55_batched",
    "C55_deriv_batched",
    "C55_integrate",
    "C55_same_as_nd"
   ],
   "note": "The closures must be supported: HERMITE in the third dimension only together with HERMITE in the second (C55_third_hermite_only_refuted shows that nothing can be built otherwise), and mixed derivatives of the second and third dimensions must be given as soon as one of the two is HERMITE (C55_mixed_needed_refuted)."
  },
  {
   "property": "C56",
   "status": "proved",
   "theorems": [
    "C56_schoenberg_whitney",
    "C56_alternative",
    "C56_greville_points",
    "C56_knot_points",
    "C56_periodic_knots",
    "C56_periodic_greville",
    "C56_periodic_odd",
    "C56_library_nonuniform",
    "C56_library_uniform",
    "C56_library_uniform_sampling",
    "C56_library_periodic",
    "C56_accepts",
    "C56_accepts_lapack",
    "C56_builds",
    "C56_same_result",
    "C56_reproduces",
    "C56_dimension",
    "C56_builds_2d",
    "C56_same_result_2d",
    "C56_builds_3d",
    "C56_same_result_3d",
    "C56_singular",
    "C56_grid_check_refuted",
    "C56_even_knots_refuted",
    "C56_even_knots_rejected"
   ],
   "note": "Greville points of non-uniform periodic spaces with an even number of cells are not covered (C56_periodic_greville, C56_library_periodic). The builder accepts grids that do not determine a spline (C56_grid_check_refuted), and the documentation of KnotsAsInterpolationPoints is false for even degrees (C56_even_knots_refuted, C56_even_knots_rejected)."
  },
  {
   "property": "C57",
   "status": "proved",
   "theorems": [
    "C57_all_smooth",
    "C57_only_smooth",
    "C57_builder",
    "C57_polynomials",
    "C57_quadrature",
    "C57_quadrature_polynomials",
    "C57_unique_2d",
    "C57_polynomials_2d"
   ],
   "note": ""
  },
  {
   "property": "C58",
   "status": "proved",
   "theorems": [
    "C58_sum_difference",
    "C58_opposite_multiple",
    "C58_scalar_one_dimension",
    "C58_assign",
    "C58_scalar_assign",
    "C58_scalar_assign_own_entry",
    "C58_scalar_assign_own_refuted",
    "C58_vector_space",
    "C58_binary64_sum_commutes",
    "C58_binary64_difference_refuted",
    "C58_equality",
    "C58_equality_reals",
    "C58_equality_symmetric_refuted",
    "C58_access",
    "C58_position",
    "C58_select",
    "C58_construct",
    "C58_values",
    "C58_coordinate",
    "C58_print"
   ],
   "note": "C58_scalar_assign_own_refuted and C58_scalar_assign_own_entry: a scalar operand that is an entry of the coordinate itself. C58_equality_symmetric_refuted: operands with different dimensions."
  },
  {
   "property": "C59",
   "status": "proved",
   "theorems": [
    "C59_cell_between",
    "C59_between",
    "C59_between_nd",
    "C59_stable",
    "C59_local",
    "C59_support",
    "C59_growth",
    "C59_derivative_between",
    "C59_nondecreasing",
    "C59_convex",
    "C59_smooth",
    "C59_periodic_smooth",
    "C59_constant_continuous",
    "C59_null_continuous",
    "C59_builder_linear"
   ],
   "note": ""
  },
  {
   "property": "C60",
   "status": "proved",
   "theorems": [
    "C60_knots",
    "C60_cell",
    "C60_basis",
    "C60_spline",
    "C60_between"
   ],
   "note": "Values only (not derivatives); the points of C52, for which the located cell does not exist, are excluded by the hypothesis j < n, and C60_cell bounds where they are. Round to nearest even, no contraction to fused multiply-adds."
  },
  {
   "property": "C61",
   "status": "proved",
   "theorems": [
    "C61_generations",
    "C61_blinker"
   ],
   "note": ""
  },
  {
   "property": "C62",
   "status": "proved",
   "theorems": [
    "C62_evenly_spaced",
    "C62_evenly_spaced_output",
    "C62_non_uniform",
    "C62_non_uniform_output",
    "C62_heat_conserved",
    "C62_heat_conserved_refuted",
    "C62_any_arithmetic"
   ],
   "note": "The values printed, their range and the mean are over exact reals; in any arithmetic, binary64 included, the evenly spaced programs print the same whatever the memory and the interleaving (C62_any_arithmetic). The heat of the program with non-uniform points is conserved only if its first and last distances are equal: C62_heat_conserved, C62_heat_conserved_refuted."
  },
  {
   "property": "C63",
   "status": "proved",
   "theorems": [
    "C63_prints",
    "C63_runs",
    "C63_mass",
    "C63_whole_cells",
    "C63_bounds_degree_1",
    "C63_bounds_degree_3_refuted"
   ],
   "note": "Over exact reals, for solvers that solve (C39, C40) and no entry dropped from the periodic block: always true with the sparse solver, for which the program is also proved to end normally (C63_runs); with the LAPACK solver and the 100 points of the program entries below 1e-14 are dropped (C39_dropped_refuted), so the exact statement does not apply to it. With the splines of degree 3 of the program the values leave the initial range: C63_bounds_degree_3_refuted. The homogeneous Dirichlet/ghost variants of other examples and the interleaving of the kernels are not part of this model: each kernel writes its own element only."
  },
  {
   "property": "C64",
   "status": "proved",
   "theorems": [
    "C64_prints",
    "C64_heat_conserved",
    "C64_stable",
    "C64_times_refuted",
    "C64_settles_refuted"
   ],
   "note": "Over exact reals, with Fourier transforms that are exact (C47). The last sentence is false: the scheme advances by the stability bound dt while the printed times advance by (t1 - t0) / N, which is smaller unless dt divides the duration (C64_times_refuted). With this dt the highest wave is not damped at all (C64_settles_refuted)."
  },
  {
   "property": "C65",
   "status": "proved",
   "theorems": [
    "C65_arrays",
    "C65_all_returned",
    "C65_huge_arrays_refuted",
    "C65_aligned",
    "C65_aligned_destructors_refuted"
   ],
   "note": "The arrays are those whose number of bytes is below 2^64: the allocator multiplies without checking, and beyond that bound a write to one chunk changes another (C65_huge_arrays_refuted). AlignedAllocator is not accepted by Chunk (it has no memory_space); its pairing of an array new-expression with a direct call of operator delete[] is undefined for types with a destructor on implementations that store the number of elements (C65_aligned_destructors_refuted). Alignment is not modelled."
  },
  {
   "property": "C66",
   "status": "proved",
   "theorems": [
    "C66_prints",
    "C66_runs",
    "C66_times",
    "C66_bounds_degree_1",
    "C66_swept",
    "C66_high_degree_refuted",
    "C66_mass_refuted"
   ],
   "note": "Over exact reals, for solvers that solve (C39, C40) and no entry dropped as negligible; always true with the sparse solver, for which the program is also proved to end normally (C66_runs). The mean that is printed is not conserved and may grow, and negative densities are printed (C66_mass_refuted): it is a mean over points that are closer to each other near the ends, and density is lost or interpolated across the ends. From degree 9 on the library gives points that are not in increasing order (C36_high_degree_refuted, C66_high_degree_refuted)."
  },
  {
   "property": "C67",
   "status": "proved",
   "theorems": [
    "C67_seen",
    "C67_seen_iff",
    "C67_chunk",
    "C67_leading_slices",
    "C67_written",
    "C67_column_refuted",
    "C67_columns_refuted",
    "C67_layout_left_refuted",
    "C67_write_outside_refuted",
    "C67_program"
   ],
   "note": "Views with gaps or in another order are accepted by the library and seen wrong, or written outside of the view (C67_column_refuted, C67_columns_refuted, C67_layout_left_refuted, C67_write_outside_refuted); C67_seen_iff shows that packed views are exactly those seen right. Strided and sparse domains are not covered."
  },
  {
   "property": "C68",
   "status": "proved",
   "theorems": [
    "C68_construct",
    "C68_construct_refuted",
    "C68_knots",
    "C68_cell",
    "C68_basis",
    "C68_spline",
    "C68_between"
   ],
   "note": "Values only (not derivatives), at points of the interval (a periodic evaluation first moves other points into it). The exact spline is the one of the knots that are held, which for periodic spaces are rounded outside the interval (C68_knots). Round to nearest even, no contraction to fused multiply-adds."
  },
  {
   "property": "C69",
   "status": "proved",
   "theorems": [
    "C69_integrals",
    "C69_integrate",
    "C69_constant"
   ],
   "note": "integrate and the meaning of the values as integrals are for open (non-periodic) spaces; for periodic spaces the values are compared with the widths of the supports. Round to nearest even, no contraction to fused multiply-adds, sums in the order of the loop."
  },
  {
   "property": "C70",
   "status": "proved",
   "theorems": [
    "C70_points",
    "C70_inside",
    "C70_inside_refuted",
    "C70_value_refuted",
    "C70_distinct_refuted",
    "C70_knots"
   ],
   "note": "Spaces that are not periodic; all Greville points (no points left out for derivative conditions). C70_knots holds for periodic spaces too. Greville points may coincide (C70_distinct_refuted), so that the interpolation problem may be singular; the sampling does not refuse them. Round to nearest even."
  }
 ]
}