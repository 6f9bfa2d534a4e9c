{
 "C05": {
  "note": "Holds when the number of elements fits in size_t; C05_unbounded_refuted shows that the bound is needed (size() wraps)."
 },
 "C08": {
  "note": "Holds for DiscreteDomain iterators for every offset but PTRDIFF_MIN (undefined, C08_minimal_offset_refuted). For strided iterators the difference is scaled by the stride (C08_strided_difference, C08_strided_difference_refuted)."
 },
 "C09": {
  "note": "contains needs a non-empty domain (C09_empty_contains_refuted); == distinguishes some equal sets (C09_equality_refuted)."
 },
 "C13": {
  "note": "Histories without move assignment of a chunk to itself; that one frees the buffer (C13_self_move_refuted)."
 },
 "C16": {
  "note": "The initial value must be neutral (C16_initial_value_refuted)."
 },
 "C17": {
  "note": "Unsigned types, and signed sums that fit in any order. C17_floating_sum_refuted and C17_signed_sum_refuted show why."
 },
 "C18": {
  "note": "C18_exclusive_in_place_refuted: an exclusive scan in place is wrong."
 },
 "C21": {
  "note": "Names are distinct and guards do not nest; the _refuted theorems show what happens otherwise."
 },
 "C26": {
  "note": "The options in force are right after every interleaving; the values returned by set_print_options and get_print_options under concurrency are not (C26_returns_temporary_refuted, C26_torn_read_refuted)."
 },
 "C29": {
  "note": "Periods up to 2^31 (C29_long_period_refuted)."
 },
 "C33": {
  "note": "Non-uniform: degree!/(degree-n)! fits in an int, as is so up to degree 12 (C33_degree_12); C33_unbounded_refuted otherwise."
 },
 "C36": {
  "note": "Periodic: at least as many cells as the degree (C36_few_cells_refuted). Uniform with Greville ends: degree at most 8 (C36_high_degree_refuted)."
 },
 "C37": {
  "note": "Uniform, not periodic: at least as many cells as the degree (C37_few_cells_refuted)."
 },
 "C38": {
  "note": "C38_periodic_overflow_refuted: sizes whose square overflows an int cannot be made."
 },
 "C39": {
  "note": "Exact unless entries below 1e-14 are dropped; C39_residual gives the error, C39_dropped_refuted an instance."
 },
 "C40": {
  "note": "At least one column (C40_no_column_refuted)."
 },
 "C41": {
  "note": "The external solver is an argument, assumed exact. Periodic spaces need more cells than the degree (C41_few_cells_refuted). With LAPACK, points that suit the band and entries not below 1e-14."
 },
 "C42": {
  "note": "Exactly, when no cell is empty; C42_empty_cell_refuted shows that a crowded cell after an empty one is not noticed."
 },
 "C43": {
  "note": "Except for periodic non-uniform spaces with an offset, where the code ignores the offset: C43_periodic_shift says what is computed, C43_graded_refuted gives an instance."
 },
 "C44": {
  "note": "Over the reals; C44_far_double_refuted in binary64."
 },
 "C45": {
  "note": "Derivatives inside the domain (C45_deriv_outside_refuted)."
 },
 "C47": {
  "note": "The transforms of KokkosFFT are arguments, assumed exact. FULL needs two points per dimension (C47_single_point_refuted)."
 },
 "C52": {
  "note": "The index can equal ncells (C52_cell_in_range_refuted, C52_cell_in_range_inside_refuted). C52_cell_at_most_one_past gives the exact extent of the defect in binary64: index in [0, ncells], reached only with an offset below 2^-14, and position accurate to 2^-17."
 },
 "C53": {
  "note": "More cells than the degree; false otherwise (C53_few_cells_refuted, C53_fewer_cells_refuted)."
 },
 "C55": {
  "note": "The closures must be supported: HERMITE in the third dimension only together with HERMITE in the second (C55_third_hermite_only_refuted shows that nothing can be built otherwise), and mixed derivatives of the second and third dimensions must be given as soon as one of the two is HERMITE (C55_mixed_needed_refuted)."
 },
 "C56": {
  "note": "Greville points of non-uniform periodic spaces with an even number of cells are not covered (C56_periodic_greville, C56_library_periodic). The builder accepts grids that do not determine a spline (C56_grid_check_refuted), and the documentation of KnotsAsInterpolationPoints is false for even degrees (C56_even_knots_refuted, C56_even_knots_rejected)."
 },
 "C58": {
  "note": "C58_scalar_assign_own_refuted and C58_scalar_assign_own_entry: a scalar operand that is an entry of the coordinate itself. C58_equality_symmetric_refuted: operands with different dimensions."
 },
 "C60": {
  "note": "Values only (not derivatives); the points of C52, for which the located cell does not exist, are excluded by the hypothesis j < n, and C60_cell bounds where they are. Round to nearest even, no contraction to fused multiply-adds."
 },
 "C62": {
  "note": "The values printed, their range and the mean are over exact reals; in any arithmetic, binary64 included, the evenly spaced programs print the same whatever the memory and the interleaving (C62_any_arithmetic). The heat of the program with non-uniform points is conserved only if its first and last distances are equal: C62_heat_conserved, C62_heat_conserved_refuted."
 },
 "C63": {
  "note": "Over exact reals, for solvers that solve (C39, C40) and no entry dropped from the periodic block: always true with the sparse solver, for which the program is also proved to end normally (C63_runs); with the LAPACK solver and the 100 points of the program entries below 1e-14 are dropped (C39_dropped_refuted), so the exact statement does not apply to it. With the splines of degree 3 of the program the values leave the initial range: C63_bounds_degree_3_refuted. The homogeneous Dirichlet/ghost variants of other examples and the interleaving of the kernels are not part of this model: each kernel writes its own element only."
 },
 "C64": {
  "note": "Over exact reals, with Fourier transforms that are exact (C47). The last sentence is false: the scheme advances by the stability bound dt while the printed times advance by (t1 - t0) / N, which is smaller unless dt divides the duration (C64_times_refuted). With this dt the highest wave is not damped at all (C64_settles_refuted)."
 },
 "C65": {
  "note": "The arrays are those whose number of bytes is below 2^64: the allocator multiplies without checking, and beyond that bound a write to one chunk changes another (C65_huge_arrays_refuted). AlignedAllocator is not accepted by Chunk (it has no memory_space); its pairing of an array new-expression with a direct call of operator delete[] is undefined for types with a destructor on implementations that store the number of elements (C65_aligned_destructors_refuted). Alignment is not modelled."
 },
 "C66": {
  "note": "Over exact reals, for solvers that solve (C39, C40) and no entry dropped as negligible; always true with the sparse solver, for which the program is also proved to end normally (C66_runs). The mean that is printed is not conserved and may grow, and negative densities are printed (C66_mass_refuted): it is a mean over points that are closer to each other near the ends, and density is lost or interpolated across the ends. From degree 9 on the library gives points that are not in increasing order (C36_high_degree_refuted, C66_high_degree_refuted)."
 },
 "C67": {
  "note": "Views with gaps or in another order are accepted by the library and seen wrong, or written outside of the view (C67_column_refuted, C67_columns_refuted, C67_layout_left_refuted, C67_write_outside_refuted); C67_seen_iff shows that packed views are exactly those seen right. Strided and sparse domains are not covered."
 },
 "C68": {
  "note": "Values only (not derivatives), at points of the interval (a periodic evaluation first moves other points into it). The exact spline is the one of the knots that are held, which for periodic spaces are rounded outside the interval (C68_knots). Round to nearest even, no contraction to fused multiply-adds."
 },
 "C69": {
  "note": "integrate and the meaning of the values as integrals are for open (non-periodic) spaces; for periodic spaces the values are compared with the widths of the supports. Round to nearest even, no contraction to fused multiply-adds, sums in the order of the loop."
 },
 "C70": {
  "note": "Spaces that are not periodic; all Greville points (no points left out for derivative conditions). C70_knots holds for periodic spaces too. Greville points may coincide (C70_distinct_refuted), so that the interpolation problem may be singular; the sampling does not refuse them. Round to nearest even."
 }
}