# Formal model of DDC in Rocq (Coq 8.16.1): design

## 1. Method

The source is the C++ of /repo/src/ddc, read as text. For each part of it there are four kinds of files in `rocq/theories`:

* `*Model.v`: the code, function by function, as total computable Gallina functions. Each definition cites the file and lines that it models and says
  where it simplifies.
* `*Spec.v`: what the properties talk about, in terms that do not use the helpers of the model (sets of elements, sequences, the Cox-de Boor
  recursion, derivatives, integrals, matrices, an independent reader of NPY files, ...).
* `*Proofs*.v`, `*Lemmas*.v`, `*Math*.v`, `*Theorems.v`, `*Findings.v`: proofs.
* `Properties*.v`: the property theorems, named `CNN_...` after the properties of `properties.jsonl`. Each is closed by `exact some_lemma.`, is followed by
  `Print Assumptions`, and has next to it examples showing that a concrete case meets its hypotheses.

A property that is false of the code as it is gets a theorem `CNN_..._refuted`, with a witness or for all the inputs concerned, beside the theorem that says
what does hold. A theorem that proves a part only ends in `_partial`.

`tools/manifest.py` writes `MANIFEST.json` from the theorems and `tools/notes.json`. `tools/assumptions.py` writes section 6. `seeded/LOG.jsonl` is the log of the
wrong programs that the theorems were tested against.

## 2. How the code is modelled

* **Outcomes.** `res T` is `Ok v`, `Undef` (undefined behaviour, or an assertion that fails: `assert`, `KOKKOS_ASSERT`), or `Rejected` (an exception). A theorem
  that concludes `f x = Ok v` says in particular that nothing undefined happens and that no assertion fails.
* **Integers.** `DiscreteElementType` is `size_t`: a number in [0, 2^64), with explicit reduction mod 2^64. `DiscreteVectorElement` is `ptrdiff_t`: overflow is
  `Undef`. `int` is 32 bits. Conversions between them are explicit.
* **Dimensions** are tags (`nat`), the template packs are lists. What the compiler rejects is either a precondition (`NoDup`) or `Rejected`.
* **Numbers.** Numerical code is written once over a record `arith` and read in three ways: `RA`, the real numbers of the standard library (the properties of
  splines, samplings and transforms); `QA`, reduced rationals, to compute witnesses; `FA`, IEEE binary64 (`SpecFloat` of the standard library; linked to Flocq in
  `FloatLink.v`), for the properties about double precision. So rounding is *not* taken into account in the theorems over `RA`.
* **Memory.** A chunk or a view is a function from addresses, or from indices, to values. Uninitialised storage is an arbitrary function, over which theorems
  quantify (`junk`).
* **Parallelism.** A parallel loop is an arbitrary permutation of the iterations, a reduction an arbitrary tree over an arbitrary partition, a scan an arbitrary
  split with two passes, threads an arbitrary interleaving of atomic steps. Theorems quantify over these. Iterations are atomic: data races inside
  user functors are not modelled.
* **External solvers** (LAPACK, Ginkgo, KokkosFFT, PDI) are arguments. What is assumed of them is a hypothesis of the theorems that need it: `exact_solvers`,
  `total_solvers` (`LinearContract.v`), `exact_library` (`FFTSpec.v`); instances that meet them are given.

## 3. The properties: model and proof

| id | model | proof |
|---|---|---|
| C01 | TypeSeqModel: recursive list functions as in type_seq.hpp | induction on lists |
| C02 | TaggedModel: tag lists with values, wrapping operators | modular arithmetic, permutations |
| C03 | DomainModel: nested loops as recursion over the dimensions | induction on the rank: the loop is the sorted enumeration of `contains` |
| C04-C07 | DomainModel: begin and end per dimension | interval arithmetic per dimension |
| C08 | IteratorModel on integers mod 2^64 | modular arithmetic |
| C09 | StridedModel with the mixed signed and unsigned test | modular arithmetic |
| C10 | SparseModel: lower_bound with its count/step loop on fuel | loop invariant, the fuel is enough |
| C11-C12 | SpanModel: mdspan mappings, slicing on a memory | mixed-radix bijection, induction on the slices |
| C13 | ChunkMemModel: heap and chunk variables | invariant by induction over histories |
| C14-C15 | BlockModel: blocks, distribute_blocks with its loop | partition of intervals, loop invariant |
| C16-C18 | ReduceModel: nested folds, join trees, two-pass scans | monoid laws, induction on trees and schedules |
| C19-C20, C49 | ParModel: iterations in any order over a memory, mirrors | permutation invariance |
| C21 | SpaceModel: store, spaces and guards as a state machine | invariant over histories |
| C22-C23 | NpyModel: byte-level writer; specification: an independent reader | round trip by induction on digits and dimensions |
| C24-C26 | PrintModel, PrintThreads: options, display recursion, interleavings | invariants, schedules as witnesses |
| C27-C29 | SamplingModel | real arithmetic |
| C30-C35, C52 | BSplineModel (both kinds, knots, cell search, basis, derivatives) | Cox-de Boor by induction on the degree; loop invariants; Flocq for C52 |
| C36 | PointsModel (Greville points, knots as points) | averages of knots |
| C37 | IntegralModel | sums; derivative of splines one degree higher |
| C38-C40 | LinearModel (all the storages, the block solvers, the chunked solver) | histories of updates; block elimination over sums |
| C41-C43, C53 | BuilderModel | the assembled matrix is the collocation matrix; linear algebra over finite sums |
| C44-C45 | EvaluatorModel | partition of unity, derivatives of pieces |
| C46 | Spline2DModel (builder and evaluator in two dimensions) | iterated one-dimensional interpolation |
| C54 | SplineNDModel (evaluator in n dimensions: lists of dimensions) | induction on the list of dimensions; agreement with the evaluators of C44 and C46 |
| C55 | Spline3DModel (builder and evaluator in three dimensions) | first dimension by C41 on each line, then C46 on each coefficient of the first dimension; functionals of one dimension composed; the evaluator through C54 |
| C56 | the builder and grids of C36 and C41 | zeros of splines counted through the derivatives (Rolle, SplineZeros, SplineTower), hence uniqueness on nested grids; existence by elimination (LinearKernel); necessity by counting equations on a part of the grid; Greville points and knots are nested; uniform periodic grids by the sign of the sum of alternating coefficients |
| C57 | the builder, quadratures and evaluators of C41, C43, C45 and C46 | Curry and Schoenberg: coefficients are found degree by degree, from the highest derivative down (SplineComplete), hence any smooth piecewise polynomial is a spline; with uniqueness (C56) the builder returns it; two dimensions line by line (Reproduce2D) |
| C58 | CoordModel (tagged_vector, coordinate) over any arithmetic; the right operand of a compound assignment is a reference, possibly into the object assigned to | pack expansions are maps over the dimensions; compound assignments by induction on the dimensions still to update; laws of a vector space over the reals, commutation in binary64 |
| C59 | the evaluators, rules and builder of C41, C44, C45 and C54 | convex combinations (B-splines are not negative and sum to 1) for bounds and stability; the derivatives of a spline form a tower of piecewise polynomials (SplineTower) glued at the knots, on all of the real line for periodic splines: mean value theorem cell by cell for growth and convexity, gluing for continuity and derivatives (ShapeTower, ShapeProofs); uniqueness (C56) for linearity of the builder |
| C60 | BSplineModel and EvaluatorModel over binary64 | error of one turn of the inner loop with a potential that pays for the roundings (FloatBasis: the errors of degree j - 1 become those of degree j with a loss of at most j + 10 half units), then the sum of products, then the distance between the located point and the coordinate, paid with the growth of splines (C59). Rounding to nearest, no fused multiply-add and no extended precision are assumed, as for all theorems over `FA` |
| C61 | ProgramModel (a program is a sequence of kernels, each with its own interleaving), LifeModel (game_of_life.cpp), trivial_space | each kernel from any memory has one result whatever the interleaving (ProgramProofs: `outcome`; GridProofs: a kernel whose calls write distinct cells nobody else reads); the invariant of the loop is that both boards contain generation k |
| C62 | HeatModel (the three finite-difference heat programs over any arithmetic; the constants of the programs are arguments, the conversion of the number of steps to `ptrdiff_t` is undefined out of range) | one kernel after the other as for C61 (HeatProofs, any arithmetic: ghosts, scheme, initial condition, display in the order of the library's sums, loop in time with the two allocations exchanged); over the reals (HeatReals, HeatPoints) the number of steps, the increments as second differences, the largest inverse distance as a reduction; maximum principle and telescoping sums |
| C63 | AdvectionModel (characteristics_advection.cpp, periodic: initial density, display, the loop in time; the builder and the evaluator are those of C37-C43, the times and the y points those of C47/C62, the exponential and `ceil` arguments) | AdvectionMath: over the reals the built coefficients are those of the periodic spline through the values, the evaluator's value at the wrapped foot is the value of its periodic extension; AdvectionMove: one step exists, is unique, keeps the sum (the B-splines translated by the points add up to one) and translates by whole cells; AdvectionProofs: the program by a postcondition rule for each loop; degree 1: the coefficients are the values, so a step is a mean of neighbours |
| C64 | SpectralModel (heat_equation_spectral.cpp: the transforms, the Fourier mesh and space are those of C47, display and times those of C62/C63; each call of the kernel changes its own coefficient) | SpectralMath: waves determine the temperature (inversion), the damped half spectrum is that of a real function since the squares of opposite frequencies are equal, Parseval for the sum of squares; SpectralProofs, SpectralTheorems: the loops by postconditions; SpectralFindings: two by two points by hand |
| C65 | HeapModel (kokkos_allocator, aligned_allocator, the constructors, moves and destructor of Chunk and the accesses of Chunk and ChunkSpan on a memory of bytes; the system's malloc is any function that hands out non-overlapping memory or throws, and may scribble on bytes outside of the blocks in use) | HeapSpec: a store of numbered arrays with rules for each statement; HeapProofs: refinement invariant (a base address per array, blocks exactly those of the arrays alive, pairwise disjoint) by induction over histories |
| C66 | OpenAdvectionModel (characteristics_advection.cpp without PERIODIC_DOMAIN: closures GREVILLE, null extrapolation rule; the rest as for C63, the points those of C36) | the points are increasing and the interpolation problem has exactly one solution (C36, C56), hence one step exists, is unique and is linear in the density; the evaluator inside and outside of the interval (C44); the loops by the postcondition rules of C63; degree 1: the coefficients are the values |
| C67 | ExposeModel (PdiEvent::with on a chunk or view: extents of the domain and pointer; examples/pdi_event.cpp) with SpanModel and PdiModel; an array of PDI is dense and row-major | the state of PDI at the event (C51) shows the latest array of a name; row-major positions enumerate the elements in order (C11), so that the dense array is the values of the chunk exactly when every element is at its row-major position; slices through C12; the fill through C19 |
| C68 | BSplineModel and EvaluatorModel over binary64, non-uniform cells | one turn of the inner loop splits a value in two parts whose weights are quotients of differences of knots: the differences and their sum have relative errors of half a unit each (a difference of two numbers does not underflow), so that a degree adds at most 9 half units to the sum of the errors however uneven the cells are (FloatStep, FloatNonUniform); the knots are followed through both loops of the constructor (FloatKnots) and stay below 2^919; sortedness of the periodic knots by monotony of rounding; the cell through C34; the sum of products as in C60 |
| C69 | IntegralModel and EvaluatorModel.integrate over binary64, non-uniform cells | a value is a rounded difference of knots, which does not underflow, times a rounded inverse: three relative errors of half a unit (FloatIntegral); the knots held by an open space are those of the exact space on the same break points, and a B-spline depends on its own knots only, so that the integrals are those of C37 and add up to the length; the errors of the sum of products by an invariant of the loop, the partial sums being bounded by the bound of the coefficients times the length (FloatIntegral2) |
| C70 | PointsModel.ng_points over binary64, open knots | the partial sums of k knots have an error of at most k^2 half units of the size of the break points (no underflow in sums), one more relative error for the division (FloatGreville); order by monotony of rounded sums, which also shows that the sampling accepts the points; exact ends when the partial sums are numbers; witness 0.1 added three times (FloatGreville2, FloatGrevilleTheorems); the loop of PointsModel.nk_points copies the break points (FloatGreville3) |
| C47 | FFTModel; the transforms of KokkosFFT are arguments | roots of unity, induction on the rank |
| C48 | MathModel | induction |
| C50 | KokkosModel | case analysis on strides |
| C51 | PdiModel: PDI as a stack of buffers per name | induction over histories |

## 4. What is modelled, and what is not

Modelled, all or nearly all of the run-time behaviour: type_seq, discrete_element, discrete_vector, discrete_domain, strided_discrete_domain,
sparse_discrete_domain, for_each, for_each_block, transform_reduce, parallel_for_each, parallel_fill, parallel_copy, parallel_deepcopy, parallel_transform,
parallel_transform_reduce, parallel_transform_scan, reducer, chunk, chunk_common, chunk_span, create_mirror, detail/kokkos, kokkos_allocator,
aligned_allocator, discrete_space, dual_discretization, scope_guard, the three samplings, tagged_vector, coordinate, save_npy, print, pdi, fft, and of kernels/splines: bsplines_uniform,
bsplines_non_uniform, greville and knots points, integrals, math_tools, the linear problems (dense, band, symmetric band, tridiagonal, 2x2 and 3x3 blocks, sparse,
maker), the extrapolation rules, the builder in one, two and three dimensions, the evaluators in one, two, three and n dimensions; trivial_space. Of examples/: game_of_life.cpp, uniform_heat_equation.cpp, heat_equation.cpp, characteristics_advection.cpp (both variants), heat_equation_spectral.cpp, pdi_event.cpp, non_uniform_heat_equation.cpp (without `generate_random_vector`: any increasing points; PDI and Kokkos initialisation apart).

Not modelled:

* detail/tuple, macros, traits; of tagged_vector the conversions between element types and from a one-dimensional coordinate to a number;
* template overload resolution, and everything that is decided by the compiler, except where a list or a Boolean of the model stands for it;
* Kokkos itself (back-ends, device memory coherence, fences: all memory is one space, except in C49), and the internals of LAPACK, Ginkgo, KokkosFFT, PDI, libc;
* rounding errors in the theorems over the real numbers; I/O errors other than those the code checks; running out of memory (except in C65); signals.

## 5. Findings

What the models show that does not agree with the documentation, or that a user may not expect. Each is a theorem.

| theorem | finding |
|---|---|
| C05_unbounded_refuted | two different domains compare equal if their sizes wrap to 0 |
| C08_strided_difference_refuted | the difference of two iterators of a strided domain is not the number of steps (it counts positions) |
| C08_minimal_offset_refuted | `it + PTRDIFF_MIN` is undefined |
| C09_empty_contains_refuted, C09_equality_refuted | an empty strided domain may contain an element; equal one-element domains with other strides compare different |
| C13_self_move_refuted | move assignment of a chunk to itself frees its buffer |
| C16_initial_value_refuted | an initial value that is not neutral enters once per row of the domain |
| C17_floating_sum_refuted, C17_signed_sum_refuted | floating-point sums depend on the schedule; a signed sum that fits may overflow under some schedules |
| C18_exclusive_in_place_refuted | an exclusive scan in place is wrong |
| C21_*_refuted | a space with the same name as another one survives the scope guard; guards do not nest; initialising without a guard is undefined |
| C26_returns_temporary_refuted, C26_torn_read_refuted | under concurrency, `set_print_options` can return the temporary options of `print_full`, `get_print_options` a mixture of two settings |
| C29_long_period_refuted, C29_length_refuted | periods above 2^31 overflow an `int`; `rlength` may be negative when the points fill more than half of the period |
| C33_unbounded_refuted | `eval_basis_and_n_derivs` of non-uniform B-splines is wrong from degree 13 on: degree!/(degree-n)! overflows |
| C36_few_cells_refuted, C36_high_degree_refuted | Greville points leave the domain with fewer cells than the degree; from degree 9 on, the uniform ones next to a Greville end overlap |
| C37_few_cells_refuted | `integrals` of uniform B-splines asks for a negative extent with fewer cells than the degree |
| C38_periodic_overflow_refuted | the size of a periodic band matrix overflows from 46341 on |
| C39_dropped_refuted | the 2x2 block solver drops entries below 1e-14, which may change the solution at will |
| C40_no_column_refuted | the sparse solver divides by zero without right-hand sides |
| C41_shifted_domain_refuted | a periodic builder whose points are at positions above degree/2 is made, and always fails |
| C41_derivs_domain_refuted | `batched_derivs_xmin_domain()` and `batched_derivs_xmax_domain()`, the domains documented for the derivatives of HERMITE closures, start at 1; `operator()` asserts that they start at 0 when the degree is even, so with an even degree derivatives given on them are never accepted |
| C41_graded_refuted | the library's own Greville points do not suit its band storage on some graded periodic meshes |
| C41_few_cells_refuted, C53_few_cells_refuted, C53_fewer_cells_refuted | periodic, as many cells as the degree: entries overwrite each other; the spline built from the values 1, 1, 1 is 6/5 |
| C42_empty_cell_refuted | after an empty cell the grid check looks at the wrong cells |
| C43_graded_refuted | periodic, non-uniform: the quadrature coefficients are not those of the spline that is built (they ignore the offset) |
| C44_far_double_refuted | in binary64, evaluating a periodic spline far away leaves the domain |
| C45_deriv_outside_refuted | derivatives are not extended outside of the domain, not even for periodic splines |
| C47_phase_refuted | the un-normalised transform is not sum_j f(x_j) e^(-i k x_j) unless the mesh starts at 0 |
| C47_single_point_refuted, C47_overflow_refuted | FULL on a mesh of one point is NaN; `init_fourier_space` overflows with more than 2^31 points |
| C52_cell_in_range_refuted, C52_cell_in_range_inside_refuted | in binary64 the uniform cell location can return `ncells` (never more, and then with an offset below 2^-14: C52_cell_at_most_one_past; for which points: C60_cell) |
| C55_mixed_needed_refuted, C55_third_hermite_only_refuted | `SplineBuilder3D` tests `SBC2 == HERMITE \|\| SBC3 == HERMITE` (should be `&&`): mixed derivatives that do not exist are dereferenced, and HERMITE in the third dimension only can never work |
| C56_grid_check_refuted | `check_valid_grid` accepts grids that do not determine a spline: it asks for the number of points and for not too many points per cell, which is weaker than the condition of Schoenberg and Whitney (degree 1, cells of length 1 on [0, 3], points 0, 1/2, 3/2, 2: nothing is known at 3); for some values every build fails |
| C56_even_knots_refuted, C56_even_knots_rejected | `KnotsAsInterpolationPoints` is documented for "any kind of closure relation except Greville": with an even degree, uniform periodic spaces with an even number of cells have a singular matrix (accepted without a diagnostic), and HERMITE closures are refused for the number of points |
| C58_scalar_assign_own_refuted, C58_scalar_assign_own_entry | `c += get<X>(c)` for a coordinate of several dimensions: `operator+=` and `operator-=` with a scalar take a reference and update entry after entry, so the dimensions listed after X are changed by the value of X after its own update ((3, 5) += its first entry gives (6, 11)) |
| C58_equality_symmetric_refuted | `operator==` of coordinates has no check of the dimensions: `Coordinate<X>(0) == Coordinate<X, Y>(0, 5)` is accepted and true, the reverse comparison is rejected |
| C62_heat_conserved_refuted | in non_uniform_heat_equation.cpp the ghosts sit at the images of the points n-2 and 1 (`periodic_extrapolation_left/right`) but receive the values of the points n-1 and 0, so the last and the first point use different distances for the same flux: heat is created (points 0, 1, 3) unless the first and the last distance are equal (C62_heat_conserved) |
| C63_bounds_degree_3_refuted | characteristics_advection.cpp with its splines of degree 3 prints negative densities and densities above the initial maximum (5 cells, a step of 1/6 over a cell of 2/5); only whole cells (C63_whole_cells) and degree 1 (C63_bounds_degree_1) are safe. The constants of the program hide it: vx dt is exactly one cell |
| C64_times_refuted | heat_equation_spectral.cpp multiplies the coefficients by `1 - (...) * dt` with the stability bound `dt` instead of `ddc::step<DDimT>()`: the temperature printed at `end_time` is that of a later time (the three other heat programs use the step) |
| C64_settles_refuted | with `dt = 2 / (kx max_rkx^2 + ky max_rky^2)` the highest wave is multiplied by -1 at each step: with two by two points the temperature oscillates for ever and does not tend to its mean |
| C65_huge_arrays_refuted | kokkos_allocator.hpp computes `sizeof(T) * n` without checking: a chunk of 2^61 + 2 doubles obtains 16 bytes, and writing its third element changes another chunk |
| C65_aligned_destructors_refuted | aligned_allocator.hpp gives the result of `new (align) T[n]` to `operator delete[]`: for types with a destructor, where the implementation stores the number of elements in front, this is not the pointer that `operator new[]` returned |
| C66_high_degree_refuted | characteristics_advection.cpp without PERIODIC_DOMAIN ends with an exception for every degree from 9 on except 10, whatever its other constants (the points of C36_high_degree_refuted) |
| C66_mass_refuted | the same program, degree 2 and 3 cells: the mean that it prints grows while the density moves to the end, and negative densities are printed |
| C67_column_refuted, C67_columns_refuted, C67_layout_left_refuted | pdi.hpp: `PdiEvent::with` shares the pointer and the extents of any chunk or view and looks neither at its layout nor at its strides: PDI sees wrong values for a column or a range of columns of a matrix and for `layout_left` |
| C67_write_outside_refuted | the same with write access: PDI overwrites elements of the chunk that are not in the view it was given |
| C68_construct_refuted | bsplines_non_uniform.hpp: the periodic constructor subtracts a rounded period: for break points -1, -1/2, 2^-53 - 2^-105, 2^-53 (strictly increasing) the knot before the first break point is greater than it, and the constructor throws. C68_construct says that this needs a first or last cell narrower than the length times 2^-53 |
| C10_unsorted_refuted | sparse_discrete_domain.hpp: the constructor takes the elements in any order, but contains and distance_from_front search by bisection: the domain of 5, 2, 9 visits 5 and does not contain it |
| C70_inside_refuted, C70_value_refuted | greville_interpolation_points.hpp:96-103: the end points are computed as averages of equal knots, and (0.1 + 0.1 + 0.1) / 3 is greater than 0.1. On the break points 0, 0.05, 0.1 with degree 3 the last interpolation point is outside the domain: an evaluator with NullExtrapolationRule gives 0 there, not the value that was interpolated. C70_inside gives conditions on the ends that exclude this |
| C70_distinct_refuted | greville_interpolation_points.hpp:96-103: Greville points of different B-splines can be the same number: for break points 1, 1 + 2^-52, 2 and degree 3 the first two are 1. The sampling accepts them, since it checks `std::is_sorted` |

## 6. Trusted base

* Coq 8.16.1: its kernel, and its compiled standard library. `vm_compute` is used (the virtual machine of the kernel), `native_compute` is not.
* The model: that the definitions of the `*Model.v` files say what the C++ says, under the simplifications that they state and those of sections 2 and 4.
* No axiom is added. Those below are from the standard library. All the theorems over the real numbers rest on `sig_forall_dec`,
  `sig_not_dec` and `functional_extensionality_dep`, from which the library builds the real numbers; those that use integrals or derivatives of Coquelicot, or Flocq, also on `classic`.
  The other libraries used (Coquelicot, Flocq, and mathcomp through Coquelicot) have no axioms of their own.

What `Print Assumptions` lists for each theorem:

<!-- ASSUMPTIONS -->
* closed under the global context (173 theorems): C63_bounds_degree_3_refuted, C41_derivs_domain_refuted, C41_graded_refuted, C41_few_cells_refuted, C42_empty_cell_refuted, C43_graded_refuted, C53_few_cells_refuted, C53_fewer_cells_refuted, C58_sum_difference, C58_opposite_multiple, C58_scalar_one_dimension, C58_assign, C58_scalar_assign, C58_scalar_assign_own_entry, C58_binary64_sum_commutes, C58_binary64_difference_refuted, C58_equality, C58_access, C58_position, C58_select, C58_construct, C58_values, C58_coordinate, C58_print, C01_rank, C01_merge, C01_remove, C01_cat, C01_replace, C01_same, C01_unique, C02_diff_then_add, C02_add_then_diff, C02_frame, C02_equality, C02_equality_order, C02_vectors, C02_vectors_mixed, C02_opposite, C02_scale, C03_for_each, C03_contains_is_box, C04_first, C04_last, C04_both, C05_equality, C05_size, C05_unbounded_refuted, C06_distance_then_at, C06_at_then_distance, C07_restrict, C07_restrict_outside, C07_product, C07_select, C07_remove_dims, C07_replace_dim, C08_iterator_laws, C08_incr_decr, C08_order, C08_range_for, C08_strided_laws, C08_strided_range_for, C08_strided_difference, C08_strided_difference_refuted, C08_minimal_offset_refuted, C09_contains, C09_distance, C09_at_onto, C09_cut_first, C09_cut_last, C09_for_each, C09_back, C09_equality, C09_empty_contains_refuted, C09_equality_refuted, C10_lower_bound, C10_binary_search, C10_contains, C10_distance, C10_at_onto, C10_for_each, C10_equality, C10_unsorted_refuted, C44_far_double_refuted, C67_seen, C67_seen_iff, C67_chunk, C67_leading_slices, C67_written, C67_column_refuted, C67_columns_refuted, C67_layout_left_refuted, C67_write_outside_refuted, C67_program, C47_mesh, C65_arrays, C65_all_returned, C65_huge_arrays_refuted, C65_aligned, C65_aligned_destructors_refuted, C62_any_arithmetic, C38_round_trip, C40_chunks, C40_not_converged, C48_factorial, C48_factorial_max, C51_life, C51_rejected, C22_round_trip, C22_view, C23_geometry, C23_throws_iff_too_long, C66_mass_refuted, C13_histories, C13_moves, C13_self_move_refuted, C14_blocks, C14_total, C15_distribution, C16_any_order, C16_in_order, C16_initial_value_refuted, C17_reducers, C17_bxor_rejected, C17_signed_sum, C17_into_chunk, C17_floating_sum_refuted, C17_signed_sum_refuted, C18_scan, C18_exclusive_in_place_refuted, C19_called_once, C19_for_each, C19_transform, C19_fill, C20_copy, C20_deepcopy, C49_mirror, C49_layout_right, C36_few_cells_refuted, C36_knots_square, C24_history, C24_ends_disjoint, C25_content, C25_print, C25_full, C26_options_kept, C26_returns_temporary_refuted, C26_torn_read_refuted, C61_generations, C61_blinker, C21_history, C21_first_wins, C21_end_clears, C21_pass_through, C21_same_name_refuted, C21_nested_guards_refuted, C21_nested_leftover_refuted, C21_unguarded_refuted, C11_bijection, C11_address, C11_iteration_order, C11_strided_order, C11_sparse_order, C11_access_by_vector, C12_slices, C12_writes, C12_no_aliasing, C50_span_to_view_and_back, C50_accepted_iff_same_addresses, C50_strided_view, C33_degree_12, C52_cell_in_range_refuted, C52_cell_in_range_inside_refuted.
* `ClassicalDedekindReals.sig_forall_dec`, `FunctionalExtensionality.functional_extensionality_dep` (66 theorems): C41_derivs_domain, C58_scalar_assign_own_refuted, C58_vector_space, C58_equality_reals, C58_equality_symmetric_refuted, C44_spaces, C47_single_point_refuted, C68_construct_refuted, C62_evenly_spaced, C62_evenly_spaced_output, C62_non_uniform, C62_non_uniform_output, C62_heat_conserved, C62_heat_conserved_refuted, C37_few_cells_refuted, C38_periodic_overflow_refuted, C39_exact, C39_residual, C39_dropped_refuted, C39_total, C40_solves, C40_no_column_refuted, C48_ipow_unsigned, C48_ipow, C48_ipow_nonneg, C48_sum, C48_dot_product, C48_min_max, C66_high_degree_refuted, C36_open, C36_periodic, C36_uniform, C36_uniform_greville, C36_high_degree_refuted, C36_uniform_knots, C36_knots, C27_init, C27_ghosted, C28_init, C28_ghosted, C29_periodic, C29_injective, C29_init, C29_ghosted, C29_long_period_refuted, C29_length_refuted, C55_mixed_needed_refuted, C55_same_as_nd, C54_one_dimension, C54_two_dimensions, C30_uniform_knots, C30_eval_basis, C30_same_as_non_uniform, C31_eval_basis, C32_uniform_deriv, C32_non_uniform_deriv, C33_uniform_n_derivs, C33_uniform_columns, C33_non_uniform_n_derivs, C33_non_uniform_columns, C33_unbounded_refuted, C34_non_uniform_cell, C34_non_uniform_far, C34_uniform_cell, C35_knots, C35_unsorted.
* `ClassicalDedekindReals.sig_forall_dec`, `ClassicalDedekindReals.sig_not_dec`, `FunctionalExtensionality.functional_extensionality_dep` (18 theorems): C47_complex_forward, C47_complex_backward, C47_real_forward, C47_real_backward, C47_complex_round_trip, C47_complex_round_trip_back, C47_real_round_trip, C47_real_round_trip_back, C47_frequencies, C47_steps, C47_fourier_sum, C47_phase_refuted, C47_overflow_refuted, C64_prints, C64_heat_conserved, C64_stable, C64_times_refuted, C64_settles_refuted.
* `ClassicalDedekindReals.sig_forall_dec`, `ClassicalDedekindReals.sig_not_dec`, `Classical_Prop.classic`, `FunctionalExtensionality.functional_extensionality_dep` (149 theorems): C63_prints, C63_runs, C63_mass, C63_whole_cells, C63_bounds_degree_1, C41_sparse, C41_lapack, C41_evaluates, C41_constructs, C41_builds, C41_sparse_builds, C41_greville_points, C41_uniform_points, C41_periodic_points, C41_shifted_domain_refuted, C42_number, C42_sound, C42_exactly, C43_quadrature, C43_homogeneous, C43_total, C43_periodic_shift, C53_rows, C53_entries, C44_inside, C44_periodic, C44_period, C44_outside, C44_rules, C44_batched, C45_deriv, C45_first_deriv, C45_deriv_batched, C45_linear, C45_constant, C45_integrate, C45_deriv_outside_refuted, C60_knots, C60_cell, C60_basis, C60_spline, C60_between, C70_points, C70_inside, C70_inside_refuted, C70_value_refuted, C70_distinct_refuted, C70_knots, C69_integrals, C69_integrate, C69_constant, C68_construct, C68_knots, C68_cell, C68_basis, C68_spline, C68_between, C37_non_uniform, C37_uniform, C48_modulo_double, C66_prints, C66_runs, C66_times, C66_bounds_degree_1, C66_swept, C57_all_smooth, C57_only_smooth, C57_builder, C57_polynomials, C57_quadrature, C57_quadrature_polynomials, C57_unique_2d, C57_polynomials_2d, C59_cell_between, C59_between, C59_between_nd, C59_stable, C59_local, C59_support, C59_growth, C59_derivative_between, C59_nondecreasing, C59_convex, C59_smooth, C59_periodic_smooth, C59_constant_continuous, C59_null_continuous, C59_builder_linear, C46_interpolates, C46_builds, C46_periodic, C46_evaluates, C46_iterated, C46_inside, C46_wraps, C46_derivative, C46_outside_first, C46_outside_second, C46_constant, C46_constant_periodic, C46_batched, C46_deriv_batched, C46_integrate, C55_interpolates, C55_builds, C55_periodic, C55_evaluates, C55_third_hermite_only_refuted, C55_inside, C55_wraps, C55_derivative, C55_outside, C55_batched, C55_deriv_batched, C55_integrate, C54_inside, C54_wraps, C54_derivative, C54_outside, C54_batched, C54_deriv_batched, C54_integrate, C34_double_precision, C52_cell_at_most_one_past, C56_schoenberg_whitney, C56_alternative, C56_greville_points, C56_knot_points, C56_periodic_knots, C56_periodic_greville, C56_periodic_odd, C56_library_nonuniform, C56_library_uniform, C56_library_uniform_sampling, C56_library_periodic, C56_accepts, C56_accepts_lapack, C56_builds, C56_same_result, C56_reproduces, C56_dimension, C56_builds_2d, C56_same_result_2d, C56_builds_3d, C56_same_result_3d, C56_singular, C56_grid_check_refuted, C56_even_knots_refuted, C56_even_knots_rejected.
<!-- END ASSUMPTIONS -->
