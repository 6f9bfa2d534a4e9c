{"id": "C01", "title": "Dimension-set algebra", "statement": "Merging, removing and replacing dimension tags yields exactly the set-theoretic result: the dimensions of a merge are the union (first operand's order first), of a removal the difference in the original order, of a replacement the pointwise substitution; the rank of a present tag is its position, and no tag is duplicated if none was in the inputs.", "quantifier": "every pair (triple) of finite dimension sequences", "why_tests_cant": "the number of dimension sequences is unbounded; each test instantiates one", "anchors": ["src/ddc/detail/type_seq.hpp: type_seq_merge_t, type_seq_remove_t, type_seq_replace_t, type_seq_rank_v, type_seq_same_v"]}
{"id": "C02", "title": "Elements and vectors form a torsor, up to machine wraparound", "statement": "For discrete elements a, b and vector v over the same dimensions, (a - b) + b == a and (a + v) - a == v for every machine value, a +/- v only changes the dimensions of v, and == compares by dimension, so results do not depend on the order in which the dimensions are listed.", "quantifier": "every element, every vector, every order of dimensions, all 64-bit values", "why_tests_cant": "2^64 values per dimension and arbitrarily many dimensions", "anchors": ["src/ddc/discrete_element.hpp: operator+=, operator-, operator==", "src/ddc/discrete_vector.hpp: operator+, operator-, operator=="]}
{"id": "C03", "title": "Sequential iteration visits each element of a domain exactly once, in order", "statement": "host_for_each / for_each over a DiscreteDomain calls the functor on exactly the elements that the domain contains, each exactly once, in lexicographic order with the last dimension fastest.", "quantifier": "every rank, every begin and extents whose end fits in 64 bits, every functor", "why_tests_cant": "extents and ranks are unbounded", "anchors": ["src/ddc/for_each.hpp: host_for_each", "src/ddc/discrete_domain.hpp: contains, front, extents"]}
{"id": "C04", "title": "Domain cutting operations partition the domain", "statement": "For 0 <= n <= extents, take_first(n) and remove_first(n) are disjoint and together contain exactly the elements of the domain (per dimension); likewise take_last/remove_last, and remove(n1,n2) is what is left after removing both ends.", "quantifier": "every domain, every n in range", "why_tests_cant": "unbounded sizes and offsets", "anchors": ["src/ddc/discrete_domain.hpp: take_first, take_last, remove_first, remove_last, remove"]}
{"id": "C05", "title": "Domain equality is equality of element sets", "statement": "Two DiscreteDomains whose numbers of elements fit in size_t compare equal iff they contain the same elements; in particular all empty domains are equal. (Without the bound the emptiness test wraps and the statement is false.)", "quantifier": "every pair of domains over the same dimensions", "why_tests_cant": "quantifies over all pairs and over all elements for each pair; the emptiness test goes through a product that wraps", "anchors": ["src/ddc/discrete_domain.hpp: operator==, size, empty"]}
{"id": "C06", "title": "distance_from_front and indexing by offset are inverse", "statement": "For an element contained in a domain, distance_from_front lies in [0, extents) in every dimension and domain(distance_from_front(e)) == e; conversely for every in-range offset v, domain(v) is contained and has distance v.", "quantifier": "every domain, element and offset", "why_tests_cant": "unbounded domains", "anchors": ["src/ddc/discrete_domain.hpp: distance_from_front, operator()"]}
{"id": "C07", "title": "Restriction, projection and products of domains are the set operations", "statement": "restrict_with(o) contains exactly the elements of the domain whose projection is in o; projecting a domain on some dimensions, removing dimensions, replacing a dimension, and building a domain from the product of domains contain exactly the corresponding projections / products.", "quantifier": "every domain and sub-domain, every dimension subset", "why_tests_cant": "unbounded ranks and sizes", "anchors": ["src/ddc/discrete_domain.hpp: restrict_with, select, remove_dims_of, replace_dim_of, DiscreteDomain(DDoms const&...)"]}
{"id": "C08", "title": "Domain iterators obey the random-access laws", "statement": "For a 1D domain, *(begin()+n) is the n-th element, (it+n)-it == n, it+n-n == it, ++ is +1, end()-begin() == extents, and iterating from begin() to end() yields every element once. For a strided domain all of this holds except that the difference of two iterators counts positions, not steps.", "quantifier": "every domain, every position and every ptrdiff_t offset", "why_tests_cant": "unbounded offsets including negative ones and values past 2^63", "anchors": ["src/ddc/discrete_domain.hpp: DiscreteDomainIterator", "src/ddc/strided_discrete_domain.hpp: StridedDiscreteDomainIterator"]}
{"id": "C09", "title": "Strided domains contain exactly their progression", "statement": "A non-empty strided domain with positive strides contains an element iff it is front + k*stride for some k < extent in each dimension; cutting operations partition it, distance_from_front returns k, and iteration visits exactly the progression in order.", "quantifier": "every front, extent, stride", "why_tests_cant": "unbounded; the range test mixes signed and unsigned arithmetic, so it depends on wraparound", "anchors": ["src/ddc/strided_discrete_domain.hpp: contains, distance_from_front, take_first, remove_first"]}
{"id": "C10", "title": "Sparse domain lookup is exact", "statement": "For sorted coordinate lists, a sparse domain contains an element iff every coordinate is in its list, distance_from_front returns its index, and the binary search terminates and returns the first position not less than the key, for every sorted list.", "quantifier": "every sorted list of any length and every key", "why_tests_cant": "binary search over unbounded lists", "anchors": ["src/ddc/sparse_discrete_domain.hpp: contains, distance_from_front, detail::lower_bound, detail::binary_search"]}
{"id": "C11", "title": "Element access in a chunk is a bijection onto its allocation", "statement": "In a Chunk over a domain, distinct elements are stored at distinct positions, every position is inside the allocation of domain.size() elements and every position is some element's; layout_right stores consecutive last-dimension elements consecutively.", "quantifier": "every rank and extents", "why_tests_cant": "unbounded sizes; a collision or overrun may appear only for particular extents", "anchors": ["src/ddc/chunk.hpp: Chunk::Chunk, operator()", "src/ddc/chunk_common.hpp"]}
{"id": "C12", "title": "Slicing a chunk aliases the right elements", "statement": "span[e](rest) is span(e, rest); span[subdomain](e) is span(e) for e in subdomain; slices of slices compose; a write through a slice changes exactly the corresponding element of the original and nothing else.", "quantifier": "every domain, layout (right, left, strided), sub-domain, fixed element, and every sequence of slicings and writes", "why_tests_cant": "arbitrary compositions of slicings", "anchors": ["src/ddc/chunk_span.hpp: operator[], operator(), get_slicer_for"]}
{"id": "C13", "title": "Chunk ownership: no leak, no double free, no sharing, in any history", "statement": "Over any sequence of constructions, moves, move-assignments, and destructions of Chunks, every buffer is freed at most once and only when no chunk owns it any more, no two chunks own the same buffer, a moved-from chunk owns nothing, a move hands over the buffer, and after all chunks are destroyed all buffers have been freed exactly once. (Move-assignment of a chunk to itself frees its buffer.)", "quantifier": "every finite history of operations on any number of chunks", "why_tests_cant": "histories are unbounded", "anchors": ["src/ddc/chunk.hpp: Chunk(Chunk&&), operator=(Chunk&&), ~Chunk"]}
{"id": "C14", "title": "Block iteration partitions the domain", "statement": "host_for_each_block visits blocks that are pairwise disjoint, whose union is the domain, whose number is the requested one and whose extents differ by at most one per dimension.", "quantifier": "every domain and every per-dimension block count with 0 < n <= extent", "why_tests_cant": "unbounded extents and block counts", "anchors": ["src/ddc/for_each_block.hpp: host_for_each_block", "src/ddc/for_each_block.cpp: ComputeBlockFn"]}
{"id": "C15", "title": "Distribution of a total number of blocks", "statement": "distribute_blocks either throws or returns a per-dimension count with product the requested number and each count between 1 and the extent; it succeeds exactly when the number is a power of two not larger than the product of the per-dimension greatest powers of two.", "quantifier": "every request and every list of extents", "why_tests_cant": "unbounded; includes termination of the loop", "anchors": ["src/ddc/for_each_block.cpp: distribute_blocks"]}
{"id": "C16", "title": "Sequential transform_reduce is the reduction of the transformed values", "statement": "For an associative and commutative reduction with the given neutral element, host transform_reduce returns the fold of the reduction over transform(e) for all e of the domain, whatever the rank (including the empty domain and rank 0).", "quantifier": "every domain, transform, commutative monoid", "why_tests_cant": "unbounded; higher-order", "anchors": ["src/ddc/transform_reduce.hpp: host_transform_reduce / transform_reduce"]}
{"id": "C17", "title": "Parallel reduction is independent of the schedule", "statement": "For the reducers that parallel_transform_reduce accepts (sum, prod, land, lor, band, bor, min, max) over an unsigned integer type, the result is the reduction of the transformed values of all elements, for every partition of the iteration space among threads and every order of joins; the reduction into a chunk stores in each cell the reduction over the remaining dimensions and changes nothing else. bxor is not accepted. A signed sum is exact when the absolute values add up below 2^63. (Floating-point sums depend on the schedule.)", "quantifier": "every partition, every order of execution and of joins", "why_tests_cant": "schedules cannot be enumerated by tests", "anchors": ["src/ddc/parallel_transform_reduce.hpp", "src/ddc/reducer.hpp"]}
{"id": "C18", "title": "Parallel scan equals the sequential prefix reduction under every split", "statement": "parallel_transform_inclusive_scan / exclusive_scan store, at position k of the scanned dimension and for each element of the other dimensions, the reduction of the transformed values of positions <= k (resp. < k, starting with the identity of the reducer), for every way the range is split in chunks and every interleaving of the final passes, and change nothing outside the output chunk; this holds when the functor does not read the output chunk, or reads only the cell being computed in an inclusive scan. (An exclusive scan in place is wrong.)", "quantifier": "every length, every split, every associative reduction", "why_tests_cant": "schedules cannot be enumerated", "anchors": ["src/ddc/parallel_transform_scan.hpp"]}
{"id": "C19", "title": "Parallel for/fill/transform have schedule-independent effects and a frame", "statement": "parallel_fill sets, and parallel_transform maps, exactly the elements of the span, in any execution order, leaving every other memory cell untouched; parallel_for_each calls the functor exactly once per element.", "quantifier": "every domain and every permutation of the iterations", "why_tests_cant": "n! schedules", "anchors": ["src/ddc/parallel_fill.hpp", "src/ddc/parallel_transform.hpp", "src/ddc/parallel_for_each.hpp"]}
{"id": "C20", "title": "Copies between chunks transpose and broadcast by dimension", "statement": "After parallel_copy(dst, src), dst(e) == src(projection of e on src's dimensions) for every e of dst's domain, whatever the order of dimensions in both and whatever the schedule; the source is unchanged when it does not overlap.", "quantifier": "every pair of domains with src's dimensions included in dst's, every dimension order, every schedule", "why_tests_cant": "unbounded ranks, permutations, sizes", "anchors": ["src/ddc/parallel_copy.hpp", "src/ddc/parallel_deepcopy.hpp"]}
{"id": "C21", "title": "Discrete space lifecycle", "statement": "A discrete space is initialised at most once per scope: a second initialisation throws and keeps the first attributes; reading gives the attributes of the initialisation; after the scope guard ends every space is uninitialised and can be initialised again in a new scope.", "quantifier": "every history of guard construction/destruction, initialisations and reads", "why_tests_cant": "histories are unbounded", "anchors": ["src/ddc/discrete_space.hpp: init_discrete_space, is_discrete_space_initialized, discrete_space", "src/ddc/scope_guard.cpp"]}
{"id": "C22", "title": "NPY files decode to the saved array", "statement": "The bytes written by save_npy form a valid NPY 1.0 file: an independent reader recovers the dtype, the storage order, the shape and every element value.", "quantifier": "every rank, shape, element type and data", "why_tests_cant": "unbounded shapes; header length depends on decimal lengths and on padding", "anchors": ["src/ddc/save_npy.cpp: save_npy", "src/ddc/save_npy.hpp: convert_to_npy_dtype, to_np_array_view"]}
{"id": "C23", "title": "NPY header geometry", "statement": "The total header length is a multiple of 16, the length field equals the bytes up to and including the newline, and save_npy throws (writing nothing) exactly when the header does not fit in 16 bits.", "quantifier": "every shape and dtype", "why_tests_cant": "depends on header length modulo 16 and on a bound reached only for huge ranks", "anchors": ["src/ddc/save_npy.cpp: save_npy"]}
{"id": "C24", "title": "Printing options always describe a valid truncation", "statement": "After any sequence of set_print_options calls the active options satisfy edgeitems < threshold/2, so a truncated dimension shows a head and a tail that do not overlap; rejected options leave the current ones unchanged and the call returns the previously active options.", "quantifier": "every history of option changes and every extent", "why_tests_cant": "unbounded histories and values", "anchors": ["src/ddc/print.cpp: set_print_options", "src/ddc/print.hpp: print_impl"]}
{"id": "C25", "title": "Printing shows exactly the specified elements in order", "statement": "print writes, for each dimension, all the entries if the extent is below the threshold and otherwise the first and last edgeitems entries separated by an ellipsis; print_full writes every element, in row-major order, and restores the options.", "quantifier": "every rank, extents, and options", "why_tests_cant": "unbounded shapes", "anchors": ["src/ddc/print.hpp: print_impl, print_content, print_full"]}
{"id": "C26", "title": "Concurrent printing does not change the options", "statement": "When threads run print_full and set_print_options concurrently, once all have returned the options are those of some set_print_options call (or the initial ones), never the temporary options of print_full. (The value that set_print_options returns may be print_full's temporary options, and get_print_options may return a mixture of two settings.)", "quantifier": "every interleaving", "why_tests_cant": "races depend on the schedule", "anchors": ["src/ddc/print.cpp: set_print_options, get_print_options", "src/ddc/print.hpp: print_full"]}
{"id": "C27", "title": "Uniform point sampling covers the interval", "statement": "UniformPointSampling::init(a,b,n) yields n strictly increasing equidistant coordinates from a to b; with ghosts, the main domain still spans exactly [a,b], the ghost domains continue with the same step, and pre, main, post partition the full domain.", "quantifier": "every a < b, n >= 2, ghost counts (over real coordinates)", "why_tests_cant": "unbounded n; all reals", "anchors": ["src/ddc/uniform_point_sampling.hpp: init, init_ghosted, coordinate, rlength"]}
{"id": "C28", "title": "Non-uniform point sampling stores the given points in order", "statement": "NonUniformPointSampling accepts exactly sorted point lists, coordinate(front + i) is the i-th point, init_ghosted places pre, main and post points contiguously so that the three domains partition the full one, and distances to the neighbours are non-negative.", "quantifier": "every list of points", "why_tests_cant": "unbounded lists", "anchors": ["src/ddc/non_uniform_point_sampling.hpp"]}
{"id": "C29", "title": "Periodic sampling is periodic", "statement": "coordinate(i + n_period) == coordinate(i), coordinates take values in a window of n_period consecutive multiples of the step centred on the origin, and coordinate is injective over any n_period consecutive elements.", "quantifier": "every i, n_period, step (n_period in int range)", "why_tests_cant": "unbounded", "anchors": ["src/ddc/periodic_sampling.hpp: coordinate, init"]}
{"id": "C30", "title": "Uniform B-spline basis evaluation", "statement": "eval_basis of UniformBSplines at any x of the domain returns the values of the degree+1 B-splines supported on the cell of x, given by the Cox-de Boor recursion on the uniform knots; they are non-negative and sum to one.", "quantifier": "every degree, number of cells, and x in [rmin, rmax] (reals)", "why_tests_cant": "all reals and degrees", "anchors": ["src/ddc/kernels/splines/bsplines_uniform.hpp: eval_basis, get_icell_and_offset"]}
{"id": "C31", "title": "Non-uniform B-spline basis evaluation", "statement": "eval_basis of NonUniformBSplines at any x in [rmin, rmax] returns the values of the degree+1 B-splines supported on the cell of x, given by the Cox-de Boor recursion on the knots; they are non-negative and sum to one.", "quantifier": "every degree, every increasing list of break points, every x", "why_tests_cant": "all reals, degrees, knots", "anchors": ["src/ddc/kernels/splines/bsplines_non_uniform.hpp: eval_basis"]}
{"id": "C32", "title": "B-spline derivatives are the derivatives of the basis", "statement": "eval_deriv returns, for each of the degree+1 B-splines supported on the cell, the derivative with respect to x of the function computed by eval_basis on that cell; the derivatives sum to zero.", "quantifier": "every degree >= 1, knots, x", "why_tests_cant": "a statement about a limit for all x", "anchors": ["src/ddc/kernels/splines/bsplines_uniform.hpp: eval_deriv", "src/ddc/kernels/splines/bsplines_non_uniform.hpp: eval_deriv"]}
{"id": "C33", "title": "Higher order derivatives", "statement": "eval_basis_and_n_derivs returns in column k the k-th derivative of each B-spline, column 0 agreeing with eval_basis and column 1 with eval_deriv.", "quantifier": "every degree, n <= degree, knots, x; for non-uniform splines such that degree!/(degree-n)! fits in an int (every degree up to 12)", "why_tests_cant": "all reals, degrees and orders", "anchors": ["src/ddc/kernels/splines/bsplines_uniform.hpp: eval_basis_and_n_derivs", "src/ddc/kernels/splines/bsplines_non_uniform.hpp: eval_basis_and_n_derivs"]}
{"id": "C34", "title": "Cell search terminates and finds the right cell", "statement": "For strictly increasing break points and x in [rmin, rmax], the cell search of both spline types terminates and returns a cell whose closure contains x and (for x < rmax) whose half-open interval contains x; for x outside it returns the nearest end cell.", "quantifier": "every list of break points and every x", "why_tests_cant": "termination of a bisection loop for all reals", "anchors": ["src/ddc/kernels/splines/bsplines_non_uniform.hpp: find_cell_start", "src/ddc/kernels/splines/bsplines_uniform.hpp: get_icell_and_offset"]}
{"id": "C35", "title": "Knot construction", "statement": "The non-uniform knot vector contains the break points in order, is sorted, and is extended periodically (t(k+ncells) = t(k)+period for every k for which both exist, also when ncells < degree) or by repeating the end points; the numbers of cells and basis functions match the break points.", "quantifier": "every degree and every sorted list of break points", "why_tests_cant": "unbounded; ncells < degree exercises values read after being written", "anchors": ["src/ddc/kernels/splines/bsplines_non_uniform.hpp: Impl::Impl, nbasis, ncells, npoints"]}
{"id": "C36", "title": "Greville points are a valid interpolation grid", "statement": "The Greville abscissae are the averages of consecutive knots, lie in [rmin, rmax], are increasing, and their number makes the interpolation problem square: number of points + boundary equations = number of basis functions.", "quantifier": "every degree, knots, closure; periodic: at least as many cells as the degree; uniform with Greville ends: degree at most 8 (it is false otherwise)", "why_tests_cant": "the construction depends on degree parity and closure; unbounded degrees", "anchors": ["src/ddc/kernels/splines/greville_interpolation_points.hpp", "src/ddc/kernels/splines/knots_as_interpolation_points.hpp"]}
{"id": "C37", "title": "Integrals of B-splines", "statement": "integrals() gives the exact integral over the domain of every basis function; in the periodic case repeated basis functions get zero, and in all cases the integrals sum to rmax - rmin.", "quantifier": "every degree, knots; uniform and not periodic: at least as many cells as the degree (the computation is undefined otherwise)", "why_tests_cant": "all reals and degrees", "anchors": ["src/ddc/kernels/splines/integrals.hpp"]}
{"id": "C38", "title": "Matrix storage round trip", "statement": "In every linear problem storage (dense, band, symmetric band, symmetric tridiagonal, 2x2 and 3x3 blocks) get_element returns the last value set at that position (or at its mirror for symmetric storages), zero if never set or outside the band, and distinct positions do not interfere.", "quantifier": "every size, bandwidth, block size and every history of set_element", "why_tests_cant": "unbounded histories and sizes", "anchors": ["src/ddc/kernels/splines/splines_linear_problem_band.cpp", "src/ddc/kernels/splines/splines_linear_problem_pds_band.cpp", "src/ddc/kernels/splines/splines_linear_problem_pds_tridiag.cpp", "src/ddc/kernels/splines/splines_linear_problem_2x2_blocks.cpp", "src/ddc/kernels/splines/splines_linear_problem_3x3_blocks.cpp"]}
{"id": "C39", "title": "Block solvers solve the whole system", "statement": "If the solvers of the diagonal blocks are exact, then after setup_solver the 2x2 block solver returns x with A x = b (A^T x = b when transposed) for the matrix A given by set_element, for every right-hand side; the 3x3 block solver likewise, its row interchange being undone.", "quantifier": "every size, block sizes, matrix with invertible main block and Schur complement, every right-hand side", "why_tests_cant": "all real matrices", "anchors": ["src/ddc/kernels/splines/splines_linear_problem_2x2_blocks.cpp: setup_solver, solve", "src/ddc/kernels/splines/splines_linear_problem_3x3_blocks.cpp: solve"]}
{"id": "C40", "title": "Chunked iterative solve touches every right-hand side once", "statement": "The sparse solver processes the right-hand-side columns in consecutive chunks that are disjoint, not larger than the limit, and cover all columns.", "quantifier": "every number of columns and chunk size", "why_tests_cant": "unbounded; boundary at multiples", "anchors": ["src/ddc/kernels/splines/splines_linear_problem_sparse.cpp: Impl::solve"]}
{"id": "C41", "title": "Spline interpolation", "statement": "If the linear solver is exact, the spline built by SplineBuilder from values (and boundary derivatives) evaluates to the given values at every interpolation point and has the given derivatives at the boundaries; for periodic splines coefficients nbasis+i and i agree.", "quantifier": "every degree, grid, closure and input values; periodic: more cells than the degree (it is false otherwise)", "why_tests_cant": "all reals, degrees, grids", "anchors": ["src/ddc/kernels/splines/spline_builder.hpp: build_matrix_system, operator()", "src/ddc/kernels/splines/spline_evaluator.hpp"]}
{"id": "C42", "title": "Grid validation", "statement": "The SplineBuilder constructor rejects the grids with a wrong number of points; it rejects only such grids and those with more than degree+1 points in one closed cell, and when no cell is empty it rejects all of these. (After an empty cell it may not.)", "quantifier": "every grid and break points", "why_tests_cant": "unbounded", "anchors": ["src/ddc/kernels/splines/spline_builder.hpp: check_valid_grid"]}
{"id": "C43", "title": "Quadrature coefficients integrate the spline", "statement": "The quadrature coefficients applied to the input values and derivatives equal the integral of the interpolating spline.", "quantifier": "every grid, closure, degree and input, except periodic non-uniform grids with an offset (where it is false: the coefficients are those of the spline shifted by the offset)", "why_tests_cant": "all reals", "anchors": ["src/ddc/kernels/splines/spline_builder.hpp: quadrature_coefficients", "src/ddc/kernels/splines/integrals.hpp"]}
{"id": "C44", "title": "Periodic evaluation and extrapolation", "statement": "Evaluating a periodic spline at x + k*period gives the value at x for every integer k, including across the seam; evaluating a non-periodic spline outside the domain gives the extrapolation rule's value (zero, or the boundary value, hence continuous for the constant rule); inside, the spline value.", "quantifier": "every x, k, coefficients", "why_tests_cant": "all reals and integers", "anchors": ["src/ddc/kernels/splines/spline_evaluator.hpp: eval", "src/ddc/kernels/splines/constant_extrapolation_rule.hpp", "src/ddc/kernels/splines/null_extrapolation_rule.hpp"]}
{"id": "C45", "title": "Spline evaluation, derivative and integral are consistent", "statement": "deriv evaluates the derivative of the evaluated spline, integrate the sum of coefficients times basis integrals; both and evaluation are linear in the coefficients; a spline with all coefficients c evaluates to c.", "quantifier": "every coefficients, x in the domain, degree (derivatives outside of the domain are undefined, also for periodic splines)", "why_tests_cant": "all reals", "anchors": ["src/ddc/kernels/splines/spline_evaluator.hpp: deriv, integrate, eval_no_bc"]}
{"id": "C46", "title": "Tensor-product splines", "statement": "Building then evaluating a 2D spline interpolates the 2D values, and 2D evaluation is the iterated 1D evaluation in either order.", "quantifier": "every pair of 1D spaces and values", "why_tests_cant": "all reals", "anchors": ["src/ddc/kernels/splines/spline_builder_2d.hpp", "src/ddc/kernels/splines/spline_evaluator_2d.hpp"]}
{"id": "C47", "title": "FFT normalisations and Fourier mesh", "statement": "For every normalisation except OFF, forward then backward transform is the identity (OFF multiplies by N); FULL scales forward by dx/sqrt(2 pi) and backward by dk/sqrt(2 pi) with dx*dk*N = 2 pi; the Fourier mesh has the right extents for real and complex transforms.", "quantifier": "every mesh and data", "why_tests_cant": "all reals", "anchors": ["src/ddc/kernels/fft.hpp", "src/ddc/kernels/fft.cpp"]}
{"id": "C48", "title": "Integer helpers", "statement": "ipow and factorial equal the mathematical power and factorial when they fit and wrap modulo 2^64 otherwise; modulo returns the representative in [0, y).", "quantifier": "every argument", "why_tests_cant": "unbounded", "anchors": ["src/ddc/kernels/splines/math_tools.hpp"]}
{"id": "C49", "title": "Mirrors", "statement": "create_mirror_and_copy gives a chunk over the same domain with the same values that does not alias the source; create_mirror_view(_and_copy) aliases the source exactly when its memory is already accessible.", "quantifier": "every source and space", "why_tests_cant": "every content and subsequent write history", "anchors": ["src/ddc/create_mirror.hpp"]}
{"id": "C50", "title": "Layout conversions preserve addresses", "statement": "Converting a span to a Kokkos view and back preserves the address of every element, for right, left and strided layouts, and fails exactly for incompatible strides.", "quantifier": "every rank, extents, strides", "why_tests_cant": "unbounded", "anchors": ["src/ddc/detail/kokkos.hpp: build_kokkos_layout, build_mdspan, is_kokkos_layout_compatible"]}
{"id": "C51", "title": "PDI events reclaim everything they share", "statement": "Destroying a PdiEvent raises its event once with all the data still shared, then reclaims every shared name exactly once; scalars and extents shared by copy stay alive until then.", "quantifier": "every sequence of with() calls, including repeated names", "why_tests_cant": "unbounded histories", "anchors": ["src/ddc/pdi.hpp: PdiEvent", "src/ddc/pdi.cpp"]}
{"id": "C52", "title": "Cell location in double precision is off by at most one cell", "statement": "For x in [rmin, rmax], the uniform cell location in double precision returns a cell index that is never negative and never more than one past the last cell, where it comes with an offset below 2^-14; the offset is in [0, 1] and index plus offset is the position of x in units of the step up to 2^-17. (That the index is always below ncells is false: it can equal ncells, even at the requested upper end.)", "quantifier": "every double x, rmin, rmax far from overflow and underflow, every degree and cell count fitting in an int", "why_tests_cant": "2^64 doubles per argument", "anchors": ["src/ddc/kernels/splines/bsplines_uniform.hpp: get_icell_and_offset"]}
{"id": "C53", "title": "Periodic collocation matrix", "statement": "For periodic splines, row i of the assembled matrix applied to coefficients gives the spline value at interpolation point i.", "quantifier": "every degree and number of cells above the degree (it is false for fewer cells)", "why_tests_cant": "unbounded", "anchors": ["src/ddc/kernels/splines/spline_builder.hpp: build_matrix_system"]}
{"id": "C54", "title": "Spline evaluation in any number of dimensions", "statement": "The n-dimensional evaluator returns the value (and deriv the mixed derivative, integrate the iterated integral) of the tensor-product spline inside the domain; periodic coordinates are brought back by periods; outside, the rule of the first non-periodic dimension that is left gives the value. In one and two dimensions it agrees with SplineEvaluator and SplineEvaluator2D for all inputs.", "quantifier": "every number of dimensions, spaces, coefficients, coordinates, derivative orders, rules, batches and meshes", "why_tests_cant": "unbounded rank, all reals", "anchors": ["src/ddc/kernels/splines/spline_evaluator_nd.hpp: eval, eval_no_bc, operator(), deriv, integrate"]}
{"id": "C55", "title": "Spline interpolation and evaluation in three dimensions", "statement": "SplineBuilder3D produces coefficients whose tensor-product spline takes the given values at all points and has the given derivatives (0 for homogeneous closures) at the ends of each dimension, including all mixed derivatives on edges and corners; it succeeds whenever its one-dimensional builders do and the closures are supported, and its coefficients are periodic in periodic dimensions. SplineEvaluator3D returns the value, mixed derivative or triple integral of that spline, applies the rule of the first dimension that is left, and agrees with the n-dimensional evaluator on all inputs.", "quantifier": "every three spaces, closures, points, data, contents of the allocations, coordinates, derivative orders, rules, batches and meshes", "why_tests_cant": "all reals; the tests use the same closure in all dimensions", "anchors": ["src/ddc/kernels/splines/spline_builder_3d.hpp: operator()", "src/ddc/kernels/splines/spline_evaluator_3d.hpp: eval, eval_no_bc, operator(), deriv, integrate"]}
{"id": "C56", "title": "Which interpolation grids determine a spline", "statement": "On a non-periodic space a grid with the expected number of increasing points determines exactly one spline for all values and end derivatives if and only if every point is inside the support of the B-spline of the same number; in all spaces existence and uniqueness are equivalent. All grids computed by GrevilleInterpolationPoints have this property without periodicity, and with it on uniform spaces or with an odd number of cells, and so have the knots for odd degrees. Such grids are accepted by SplineBuilder, which returns the one interpolating spline whatever the solver and the contents of memory; splines are reproduced at every coordinate; the same holds in two and three dimensions.", "quantifier": "every degree, space, closure, grid, values and derivatives, exact solver that succeeds for matrices that can be inverted", "why_tests_cant": "all reals, degrees and grids; tests build a few grids and cannot see that a matrix is always invertible", "anchors": ["src/ddc/kernels/splines/spline_builder.hpp: check_valid_grid, build_matrix_system, operator()", "src/ddc/kernels/splines/greville_interpolation_points.hpp: get_sampling", "src/ddc/kernels/splines/knots_as_interpolation_points.hpp"]}
{"id": "C57", "title": "Splines are exactly the smooth piecewise polynomials, and these are reproduced exactly", "statement": "For a spline space of degree d the functions represented by coefficients are exactly the piecewise polynomials of degree at most d on its cells whose derivatives of order less than d are continuous (and periodic in periodic spaces), each by one set of coefficients only. When the interpolation grid determines a spline, SplineBuilder fed with the values and end derivatives of such a function returns coefficients for which SplineEvaluator gives its value at every coordinate, its derivatives of every order and its integral; in particular all polynomials of degree at most d are reproduced. The quadrature coefficients of the builder integrate all such functions exactly. In two dimensions the data determine the spline and polynomials in x and y are reproduced with all mixed derivatives.", "quantifier": "every space, degree, grid, closure, smooth piecewise polynomial or polynomial, coordinate, derivative order, exact solver and contents of memory", "why_tests_cant": "all reals, all functions of the space and all coordinates; tests interpolate one polynomial or a cosine and compare at a few coordinates", "anchors": ["src/ddc/kernels/splines/spline_builder.hpp: operator(), quadrature_coefficients", "src/ddc/kernels/splines/spline_builder_2d.hpp: operator()", "src/ddc/kernels/splines/spline_evaluator.hpp: operator(), deriv, integrate", "src/ddc/kernels/splines/spline_evaluator_2d.hpp"]}
{"id": "C58", "title": "Coordinates are vectors indexed by dimension", "statement": "Sums, differences, opposites, multiples and compound assignments of coordinates act dimension by dimension whatever the order in which the operands list their dimensions, also when both operands are the same object, and are rejected when the dimensions differ; in exact arithmetic the laws of a vector space hold, in binary64 sums commute exactly. == compares the values of the dimensions of the left operand; get, get_or, select and the assembly from other coordinates return the values of the named dimensions and reject missing or repeated ones; the coordinate of a discrete element of several dimensions has along each continuous dimension the coordinate of that component; streams print (v1, v2, ...) in order. Adding to a coordinate one of its own entries does not do what it says (refuted).", "quantifier": "every number of dimensions, order of dimensions, value, arithmetic (exact or binary64) and aliasing of the operands", "why_tests_cant": "arbitrarily many dimensions and orders, all values; aliasing of operands is a matter of identity, not of values", "anchors": ["src/ddc/detail/tagged_vector.hpp: TaggedVector, operator+, operator-, operator*, operator==, operator+=, operator-=, operator*=, get, get_or, select, take, print_tagged_vector", "src/ddc/coordinate.hpp: coordinate"]}
{"id": "C59", "title": "Shape of evaluated splines", "statement": "A spline evaluated at a point is between the smallest and the largest of the coefficients of the cell of the point (in any number of dimensions: of all coefficients); errors on coefficients are not amplified; values and derivatives depend on the degree + 1 coefficients of the cell only, and a coefficient acts on the support of its B-spline only. The function grows at a rate between the bounds of the slopes of its coefficients, as do the first derivatives returned; coefficients that do not decrease give a function that does not, slopes that do not decrease a convex one. The functions of the derivatives of order below the degree are continuous and each is the derivative of the one before, for periodic splines on the whole real line; extension by the values at the ends is continuous everywhere, extension by 0 only if the values at the ends are 0. What a builder computes is linear in the data.", "quantifier": "every uniform or non-uniform, periodic or open spline space, coefficients, coordinates, derivative orders, memory contents; every well posed interpolation problem for the last one", "why_tests_cant": "inequalities, continuity and derivatives between all pairs of real points, for all coefficients", "anchors": ["src/ddc/kernels/splines/spline_evaluator.hpp: operator(), deriv, eval_no_bc", "src/ddc/kernels/splines/spline_evaluator_nd.hpp", "src/ddc/kernels/splines/constant_extrapolation_rule.hpp", "src/ddc/kernels/splines/null_extrapolation_rule.hpp", "src/ddc/kernels/splines/spline_builder.hpp: operator()"]}
{"id": "C60", "title": "Rounding errors of uniform splines in double precision", "statement": "A uniform spline space built in double precision on bounds far from overflow and underflow, of degree at most 1000, stores knots that are the requested ones up to a few rounding errors. Wherever the located cell is one of the space (all of [rmin, rmax] except possibly points closer to the last break point than (n+2) 2^-49 steps), eval_basis returns numbers that are not negative, that sum to 1 up to d(d+21) 2^-54 and whose distances to the exact B-splines of the stored knots add up to at most (d(d+21) + 64(n+2)) 2^-54; and evaluating a spline whose coefficients are bounded by M neither overflows nor errs by more than M (d(d+25) + 64 n + 140) 2^-54 (plus 4(d+1) half smallest numbers), so that values stay between the bounds of the coefficients up to this error, whatever uninitialised memory contains.", "quantifier": "every degree up to 1000, number of cells, bounds, coordinate, coefficients (all binary64 numbers in range), periodic or not, extrapolation rules and contents of memory", "why_tests_cant": "all binary64 inputs; tests compare a few values with a tolerance chosen by hand", "anchors": ["src/ddc/kernels/splines/bsplines_uniform.hpp: Impl, eval_basis, get_icell_and_offset", "src/ddc/kernels/splines/spline_evaluator.hpp: operator(), eval, eval_no_bc"]}
{"id": "C61", "title": "The game of life program prints the generations of the blinker", "statement": "The program examples/game_of_life.cpp, on a board of any size and for any number of iterations, prints the blinker and then each generation of the game of life after it (a live cell lives on with two or three live neighbours, a dead one is born with three, the border never changes), whatever its memory contained before and however the calls of its kernels are interleaved; with at least five rows and columns the boards alternate between the line and the line turned by a quarter. It performs no undefined access.", "quantifier": "every board size, number of iterations, contents of uninitialised memory and of index arrays, addresses of the allocations, and interleaving of the accesses of the parallel calls of every kernel", "why_tests_cant": "the program is run with one size and with the schedules a machine happens to choose; a race or an out-of-bounds neighbour shows only under some of them", "anchors": ["examples/game_of_life.cpp: blinker_init, main", "src/ddc/trivial_space.hpp: init_trivial_bounded_space", "src/ddc/parallel_for_each.hpp", "src/ddc/parallel_deepcopy.hpp", "src/ddc/create_mirror.hpp"]}
{"id": "C62", "title": "The heat equation programs print the history of the explicit scheme, inside the range of the data", "statement": "The programs examples/uniform_heat_equation.cpp, examples/heat_equation.cpp and examples/non_uniform_heat_equation.cpp, for any numbers of points, end points or increasing points, positive coefficients, times and output period, print at the start, at every output period and at the end the mean and the middle slice of the temperature that starts with the hot disc and evolves by the explicit periodic scheme, with the fewest time steps that satisfy the stability bound; whatever the memory contained and however the calls of the kernels are interleaved, without any undefined access. The times printed go up from the start to the end, every value stays between 0 and 9.999, the first two programs print the same lines, and with evenly spaced points the mean is constant.", "quantifier": "every number of points, set of points, coefficients, times, output period, contents of uninitialised memory (among them the corners of the ghosts), addresses of the allocations, and interleaving of the accesses of the parallel calls of every kernel; over exact real numbers", "why_tests_cant": "the programs are run with one set of constants and nothing checks what they print; races, reads of unset ghosts, a wrong mirror or a step too long show only for other sizes, times or schedules", "anchors": ["examples/uniform_heat_equation.cpp: display, main", "examples/heat_equation.cpp: display, main", "examples/non_uniform_heat_equation.cpp: periodic_extrapolation_left, periodic_extrapolation_right, display, main", "src/ddc/uniform_point_sampling.hpp: init, init_ghosted", "src/ddc/non_uniform_point_sampling.hpp: init_ghosted", "src/ddc/parallel_for_each.hpp", "src/ddc/parallel_deepcopy.hpp", "src/ddc/transform_reduce.hpp"]}
{"id": "C63", "title": "The advection program prints the history of the semi-Lagrangian scheme and conserves mass", "statement": "The program examples/characteristics_advection.cpp, periodic in x, for any spline degree, numbers of cells and points, end points, velocity, times and output period, prints at the start, at every output period and at the end the mean and the middle slice of the density that starts as a gaussian and whose value at a point x after a step is the value at x - vx dt of the periodic spline through the values before it, with the fewest time steps that are not longer than the bound; whatever the memory contained. The times printed go up from the start to the end and the mean is constant: mass is conserved. When a step goes over a whole number of cells, as with the constants of the program, the density is translated without error, and with splines of degree 1 every value stays between 0 and the initial maximum.", "quantifier": "every degree, number of cells and points, end points, velocity of either sign, times, bound on the step, output period, exponential function, exact linear solver, contents of uninitialised memory; over exact real numbers", "why_tests_cant": "the program is run with one set of constants, for which each step is exactly one cell, and nothing checks what it prints; the wrong sign of the displacement, a missing wrap around of the feet, stale coefficients or a loss of mass show only for other velocities, degrees or sizes", "anchors": ["examples/characteristics_advection.cpp: display, main", "src/ddc/kernels/splines/spline_builder.hpp: SplineBuilder::operator()", "src/ddc/kernels/splines/spline_evaluator.hpp: SplineEvaluator::operator()", "src/ddc/kernels/splines/greville_interpolation_points.hpp: GrevilleInterpolationPoints"]}
{"id": "C64", "title": "The spectral heat program prints the history of the explicit spectral scheme, stable and conserving heat", "statement": "The program examples/heat_equation_spectral.cpp, for any numbers of points, end points, positive coefficients, times and output period, ends and prints at the start, at every output period and at the end the mean and the middle slice of the temperature that starts with the hot disc and each of whose Fourier coefficients is multiplied at each step by one minus the time step times its rate of decay (computed on half of the coefficients, with the frequencies and the mesh of the library). The times printed go up from the start to the end, the mean is constant and the sum of the squares never grows. The time step should be the difference of the times printed.", "quantifier": "every number of points (odd or even), end points, coefficients, times, output period and exact Fourier transform library; over exact real numbers", "why_tests_cant": "the program is run with one set of constants and nothing checks what it prints; a wrong sign or wrapping of the frequencies, a wrong half of the spectrum, a wrong normalisation or step show only for other sizes or other waves", "anchors": ["examples/heat_equation_spectral.cpp: display, main", "src/ddc/kernels/fft.hpp: fft, ifft, fourier_mesh, init_fourier_space"]}
{"id": "C65", "title": "Chunks are independent arrays, in any history", "statement": "In any program that creates chunks of any element types on any domains, moves and assigns them, slices them into views, writes through chunks and through views, and destroys them, no access is undefined, every element reads the value last written to it (through the chunk that has the array now or through any view of it, also a view made before the chunk was moved), no write changes any other element of any chunk, and the memory held is one block of exactly the right number of bytes for each array alive. When the allocator throws, this holds at the statement that threw. When no chunk is alive no memory is held. An AlignedAllocator takes back what it gave.", "quantifier": "every sequence of statements, element size, domain, slicing, written value, behaviour of the system's allocator that hands out non-overlapping memory (including failures), and content of fresh memory", "why_tests_cant": "tests run a few histories on small domains with one allocator; sharing of bytes between arrays or elements shows only for the addresses, sizes and orders of creation, moves and destruction that make them meet", "anchors": ["src/ddc/chunk.hpp: Chunk, operator=, ~Chunk, operator(), operator[], span_view", "src/ddc/chunk_common.hpp: ChunkCommon", "src/ddc/chunk_span.hpp: operator(), operator[]", "src/ddc/kokkos_allocator.hpp: KokkosAllocator::allocate, deallocate", "src/ddc/aligned_allocator.hpp: AlignedAllocator::allocate, deallocate"]}
{"id": "C66", "title": "The advection program that is not periodic prints the history of its scheme", "statement": "The program examples/characteristics_advection.cpp without PERIODIC_DOMAIN (the variant its source offers), for any spline degree from 1 to 8, numbers of cells and points, end points, velocity, times and output period, prints at the start, at every output period and at the end the mean and the middle slice of the density that starts as a gaussian on the Greville points and whose value at a point x after a step is the value at x - vx dt of the one spline through the values before it, and 0 when x - vx dt is outside of the interval; with the fewest time steps that are not longer than the bound and whatever the memory contained. The times printed go up from the start to the end. With splines of degree 1 every value stays between 0 and the initial maximum, and when a step is longer than the interval nothing is left after the first. From degree 9 on (10 excepted) the program ends with an exception.", "quantifier": "every degree, number of cells and points, end points, velocity of either sign, times, bound on the step, output period, exponential function, exact linear solver, contents of uninitialised memory; over exact real numbers", "why_tests_cant": "this variant is not even compiled by the tests; a foot taken on the wrong side, a value extrapolated instead of 0, an end point treated as outside, stale coefficients or points of the wrong closure show only for other velocities, degrees or sizes than those tried", "anchors": ["examples/characteristics_advection.cpp: display, main", "src/ddc/kernels/splines/greville_interpolation_points.hpp: GrevilleInterpolationPoints", "src/ddc/kernels/splines/spline_builder.hpp: SplineBuilder::operator()", "src/ddc/kernels/splines/spline_evaluator.hpp: SplineEvaluator::operator()", "src/ddc/kernels/splines/null_extrapolation_rule.hpp: NullExtrapolationRule"]}
{"id": "C67", "title": "PDI sees the values of the chunks exposed to it", "statement": "A chunk, or a view whose elements are stored without gaps in the order of its domain (a whole chunk, or what is left of one when its leading dimensions are fixed and the next one is restricted), exposed to PDI with any number of dimensions and among any other data of the same event, is seen by PDI when the event is raised as an array of the extents of its domain with the values of the chunk, the last dimension fastest; what PDI writes to an array exposed for writing becomes the values of the chunk and changes nothing else. No other view is seen right. The program examples/pdi_event.cpp shows PDI an array of the given extents filled with the given value, read only, whatever the interleaving of the fill, and leaves PDI as it was.", "quantifier": "every domain, number of dimensions, slicing of the leading dimensions, content of the memory, list of other exposed data, access, values written by PDI; for the program every front, extents, value and schedule", "why_tests_cant": "a test exposes one chunk of one shape; elements seen in the wrong order or belonging to others show only for views with other strides, and only when neighbouring values differ", "anchors": ["src/ddc/pdi.hpp: PdiEvent::with, expose_to_pdi", "src/ddc/pdi.cpp: PdiEvent::~PdiEvent", "src/ddc/chunk_common.hpp: data_handle", "src/ddc/chunk_span.hpp: operator[]", "examples/pdi_event.cpp: main"]}
{"id": "C68", "title": "Rounding errors of splines on non-uniform cells in double precision", "statement": "Break points in double precision that are at most 2^900 in size and at least 2^-900 apart make a spline space of any degree from 1 to 1000 when it is not periodic, and also when it is periodic if neither the first nor the last cell is narrower than the length times 2^-53 (otherwise the constructor may throw). The space holds the break points as they are given; its outer knots are the ends, or the knots of the other end moved by a period up to rounding. Every number between the first and the last break point is located in a cell that contains it; eval_basis returns numbers that are not negative, that sum to 1 up to 9 d 2^-53 and whose distances to the exact B-splines of the knots held add up to at most 9 d 2^-53; evaluating a spline whose coefficients are bounded by M neither overflows nor errs by more than M (11 d + 6) 2^-53 (plus 4 (d + 1) half smallest numbers), so that values stay between the bounds of the coefficients up to this error. The bounds depend neither on how uneven the cells are nor on how many they are.", "quantifier": "every degree, list of break points however uneven, boundary (periodic or not), double-precision point of the interval, coefficients, contents of uninitialised memory; binary64 with rounding to nearest", "why_tests_cant": "tests compare a few points of a few meshes with a tolerance; a formula that cancels, overflows or divides by a rounded zero shows only for very uneven cells, high degrees or points next to a knot", "anchors": ["src/ddc/kernels/splines/bsplines_non_uniform.hpp: NonUniformBSplines::Impl, eval_basis, find_cell_start", "src/ddc/non_uniform_point_sampling.hpp: NonUniformPointSampling::Impl", "src/ddc/kernels/splines/spline_evaluator.hpp: eval, eval_no_bc"]}
{"id": "C69", "title": "Rounding errors of integrals of splines on non-uniform cells in double precision", "statement": "On break points in double precision that are at most 2^900 in size and at least 2^-900 apart, integrals() gives each B-spline a non-negative number equal to the width of its support divided by the degree plus one up to a relative error of 4 2^-53, and exactly zero to the repeated B-splines of a periodic space, whatever the memory held before; without periodicity that quotient is the integral of the exact B-spline of the knots the space holds. Without periodicity, SplineEvaluator::integrate applied to coefficients bounded by M (with M times the length at most 2^1000) neither overflows nor errs, in any batch element, by more than M times the length times (3 N + 5) 2^-53 (plus 3 N half smallest numbers) from the integral of the exact spline, N being the number of coefficients; equal coefficients give the coefficient times the length up to this error.", "quantifier": "every degree from 1 to 1000, list of break points however uneven, coefficients, number of batch elements, contents of uninitialised memory; binary64 with rounding to nearest", "why_tests_cant": "tests integrate a few splines on a few meshes with a tolerance; the growth of the error with the number of cells, and overflow or cancellation on uneven cells, need a bound for every mesh", "anchors": ["src/ddc/kernels/splines/integrals.hpp: integrals, non_uniform_bsplines_integrals", "src/ddc/kernels/splines/spline_evaluator.hpp: SplineEvaluator::integrate", "src/ddc/kernels/splines/bsplines_non_uniform.hpp: NonUniformBSplines"]}
{"id": "C70", "title": "Greville points of non-uniform cells in double precision", "statement": "On break points in double precision that are at most 2^900 in size and at least 2^-900 apart, without periodicity, GrevilleInterpolationPoints::get_sampling never throws: it gives one finite point for each B-spline, in increasing order (points may coincide), each within (d + 2) 2^-53 times the size of the break points (plus half of the smallest number) of the average of its d inner knots. If the ends can be added to themselves d times without rounding (always for degrees 1 and 2, and for integers) the first and the last point are the ends of the interval and all points are in it; otherwise a point may be outside, and there a spline evaluated with null extrapolation is 0 instead of the value it interpolates. KnotsAsInterpolationPoints::get_sampling gives the break points themselves, with or without periodicity.", "quantifier": "every degree from 1 to 1000, list of break points however uneven; binary64 with rounding to nearest", "why_tests_cant": "tests use a few intervals whose ends are round numbers or compare with a tolerance; whether a rounded average is outside the interval depends on the last bits of the ends", "anchors": ["src/ddc/kernels/splines/greville_interpolation_points.hpp: GrevilleInterpolationPoints::non_uniform_greville_points, get_sampling", "src/ddc/kernels/splines/spline_evaluator.hpp: SplineEvaluator::eval", "src/ddc/kernels/splines/null_extrapolation_rule.hpp: NullExtrapolationRule", "src/ddc/kernels/splines/knots_as_interpolation_points.hpp: KnotsAsInterpolationPoints::get_sampling"]}
