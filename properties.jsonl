{"id": "C01", "title": "Row operations never change the lattice", "statement": "Whatever sequence of row operations (row_add, row_sub, row_addmul*, row_swap, move_row, negate) is performed through a GSO object, the set of integer combinations of the rows of b is the same before and after.", "quantifier": "for all bases, all finite sequences of row operations with valid indices, all integer multipliers and shifts", "why_tests_cant": "The set of histories and multipliers is infinite; tests run a handful of reductions and compare a final basis.", "anchors": ["fplll/gso.cpp: MatGSO::row_add, row_sub, row_addmul_si, row_addmul_si_2exp, row_addmul_2exp, row_swap, move_row", "fplll/gso_interface.h"]}
{"id": "C02", "title": "Transformation matrix tracks the basis", "statement": "If a GSO object is created with a transform matrix u (initially the identity), then after any sequence of row operations the current basis equals u times the initial basis.", "quantifier": "for all initial bases, all finite sequences of row operations", "why_tests_cant": "Histories are unbounded; a test only checks the product at the end of particular runs.", "anchors": ["fplll/gso.cpp", "fplll/gso_interface.h: enable_transform", "fplll/nr/matrix.h"]}
{"id": "C03", "title": "Inverse transformation matrix stays the inverse", "statement": "If a GSO object is created with both u (identity) and u_inv_t (identity), then after any sequence of row operations the transpose of u_inv_t is the two-sided inverse of u; hence u is unimodular and the initial basis equals (u_inv_t)^T times the current basis.", "quantifier": "for all dimensions, all finite sequences of row operations", "why_tests_cant": "Only a proof by induction over histories covers all of them.", "anchors": ["fplll/gso.cpp", "fplll/gso_interface.h: enable_inverse_transform"]}
{"id": "C04", "title": "Exact Gram matrix always matches the basis", "statement": "With GSO_INT_GRAM, after any sequence of row operations, get_int_gram(g,i,j) for every discovered row pair returns exactly the inner product of the current rows i and j; the symmetric storage in one triangle is never out of date, including after move_row of a row into or out of the discovered range.", "quantifier": "for all bases, all histories of row operations interleaved with row discovery", "why_tests_cant": "The bug surface is in the interleavings of discovery, rotation and addition at each index; tests touch few.", "anchors": ["fplll/gso.cpp: row_add.., move_row, discover_row", "fplll/gso.h", "fplll/nr/matrix.cpp: rotate_gram_left, rotate_gram_right"]}
{"id": "C05", "title": "GSO cache is transparent", "statement": "After any history of row operations and partial updates, asking for the GSO coefficients of row i yields exactly the values that a freshly created GSO object for the current basis would yield; no stale mu/r value is ever observable, for any floating-point type.", "quantifier": "for all histories, all bases, and all (deterministic) implementations of the floating-point operations", "why_tests_cant": "Invalidations are index-range bookkeeping whose errors only show for particular histories.", "anchors": ["fplll/gso_interface.cpp: update_gso_row", "fplll/gso_interface.h: invalidate_gso_row, gso_valid_cols", "fplll/gso.cpp: move_row, row_swap"]}
{"id": "C06", "title": "Exact GSO coefficients are the Gram-Schmidt coefficients", "statement": "With an exact floating-point type the values reported by get_mu(i,j) and get_r(i,j) satisfy the defining equations of Gram-Schmidt orthogonalisation: b_i = b*_i + sum mu_ij b*_j with the b*_i pairwise orthogonal, r_ij = mu_ij * ||b*_j||^2 and r_ii = ||b*_i||^2.", "quantifier": "for all linearly independent integer bases", "why_tests_cant": "Quantifies over all bases; floating-point tests only check small error on samples.", "anchors": ["fplll/gso_interface.cpp: update_gso_row"]}
{"id": "C07", "title": "Rows appended to a GSO object are zero rows", "statement": "create_row / create_rows adds rows that are zero: their entries, and their inner products with every other row as reported by the object, are zero, whatever rows were previously removed with remove_last_rows.", "quantifier": "for all histories of create_rows and remove_last_rows", "why_tests_cant": "Depends on capacity left by earlier removals; one needs particular histories.", "anchors": ["fplll/gso_gram.cpp: size_increased", "fplll/gso_gram.h: create_rows, remove_last_rows", "fplll/gso.cpp: size_increased"]}
{"id": "C08", "title": "Matrix rotations and moves are the intended permutations", "statement": "rotate_left(first,last), rotate_right(first,last), rotate(first,middle,last) and move_row(old,new) permute rows exactly as documented (cyclic shift of the range, everything else untouched) for every valid range.", "quantifier": "for all matrices and all index ranges", "why_tests_cant": "All sizes and ranges.", "anchors": ["fplll/nr/matrix.h: rotate_left, rotate_right, rotate", "fplll/nr/matrix.cpp", "fplll/gso.cpp: move_row"]}
{"id": "C09", "title": "Partial-column arithmetic is exact", "statement": "Row operations only touch the first n_known_cols columns of b (columns discovered so far, possibly locked by LLL early reduction); nevertheless the result always equals the full-width row operation.", "quantifier": "for all bases, all histories of discovery, locking and row operations among discovered rows", "why_tests_cant": "The invariant (entries beyond the known columns are zero in discovered rows) must hold in every state.", "anchors": ["fplll/gso.cpp: discover_row, row_add, row_addmul_si", "fplll/gso_interface.h: lock_cols, unlock_cols"]}
{"id": "C10", "title": "Lattice preservation of LLL under any rounding", "statement": "lll_reduction / LLLReduction::lll leaves the lattice generated by the rows unchanged, regardless of floating-point precision, rounding errors, NaN comparisons, and of whether the reduction succeeds or fails at any iteration.", "quantifier": "for all integer bases, all floating-point behaviours (arbitrary values for every floating-point computation and comparison), all iteration counts", "why_tests_cant": "Rounding behaviours are unbounded; tests see just those of the platform on sample inputs.", "anchors": ["fplll/lll.cpp: LLLReduction::lll, babai, size_reduction", "fplll/wrapper.cpp: lll_reduction"]}
{"id": "C11", "title": "Transforms returned by LLL are mutually inverse and link input and output", "statement": "With transform matrices requested, lll_reduction(b,u,u_inv) returns, on success or failure and for any rounding, u and u_inv with b_out = u*b_in, b_in = u_inv*b_out and u*u_inv = identity, including after the final move of zero rows to the front.", "quantifier": "for all bases, all floating-point behaviours", "why_tests_cant": "Same as above, plus the final rotations of the three matrices must agree.", "anchors": ["fplll/wrapper.cpp: lll_reduction, lll_reduction_z, zeros_first", "fplll/util.cpp: zeros_first"]}
{"id": "C12", "title": "A successful exact LLL run returns an LLL-reduced basis", "statement": "With exact arithmetic, if LLLReduction::lll reports success then the basis satisfies |mu_ij| <= eta for i>j and the Lovasz (or Siegel) condition with parameter delta at each index of the processed range.", "quantifier": "for all bases, all delta, eta, all block positions (kappa_min=0), any number of iterations", "why_tests_cant": "For-all property over inputs; the loop invariant is about every intermediate kappa.", "anchors": ["fplll/lll.cpp: LLLReduction::lll, babai"]}
{"id": "C13", "title": "is_lll_reduced decides the LLL conditions", "statement": "is_lll_reduced returns true exactly when the basis is size-reduced with eta and satisfies the Lovasz condition with delta (exact arithmetic), for linearly independent rows. For dependent rows this is false: the result of update_gso is ignored.", "quantifier": "for all bases and parameters", "why_tests_cant": "Tests use is_lll_reduced as their oracle; its own correctness is not testable by itself.", "anchors": ["fplll/lll.h: is_lll_reduced"]}
{"id": "C14", "title": "Quality guarantee of an LLL-reduced basis", "statement": "For every basis accepted by is_lll_reduced(delta, eta) with 0 <= eta and 0 < delta - eta^2 <= 1 (in particular 1/4 < delta - eta^2 <= 1), also with dependent rows, the squared norm of the first vector is at most (1/(delta-eta^2))^(d-1) times the squared norm of every non-zero lattice vector.", "quantifier": "for all reduced bases, all non-zero lattice vectors", "why_tests_cant": "Quantifies over infinitely many lattice vectors.", "anchors": ["fplll/lll.h: is_lll_reduced", "fplll/lll.cpp"]}
{"id": "C15", "title": "LLL always returns", "statement": "LLLReduction::lll performs a bounded number of loop iterations whatever the floating-point behaviour: it returns success or a failure status and never loops for ever.", "quantifier": "for all inputs and all floating-point behaviours", "why_tests_cant": "Non-termination under adversarial rounding cannot be tested.", "anchors": ["fplll/lll.cpp: lll (max_iter), babai (SIZE_RED_FAILURE_THRESH)"]}
{"id": "C16", "title": "LLL on a sub-range handles zero vectors", "statement": "lll(kappa_min, kappa_start, kappa_end) moves the zero vectors found at the beginning of the processed range behind the range, for every kappa_min, and never treats a zero vector as a basis vector.", "quantifier": "for all kappa_min, all bases with zero rows", "why_tests_cant": "Only the case kappa_min=0 is exercised by callers in the tests.", "anchors": ["fplll/lll.cpp: lll, leading zero loop"]}
{"id": "C17", "title": "A failed LLL run reports a failure status", "statement": "When LLLReduction::lll or size_reduction returns false, get_status() / the member status is a failure code (never RED_SUCCESS).", "quantifier": "for all inputs and all floating-point behaviours", "why_tests_cant": "Failure paths depend on numerical exceptions that tests do not provoke.", "anchors": ["fplll/lll.cpp: lll, size_reduction, babai; set_status"]}
{"id": "C18", "title": "Enumeration returns a shortest vector (exact arithmetic, no pruning)", "statement": "With exact arithmetic and the initial radius at least the minimum, enumeration with the best-solution strategy returns a non-zero coefficient vector whose squared length is minimal among all non-zero lattice vectors.", "quantifier": "for all dimensions, all GSO data with positive r_ii, all radii", "why_tests_cant": "The search tree is infinite-breadth; tests compare a few known shortest vectors.", "anchors": ["fplll/enum/enumerate_base.cpp: enumerate_loop, enumerate_recursive", "fplll/enum/enumerate_base.h: next_pos_up", "fplll/enum/evaluator.h"]}
{"id": "C19", "title": "Every vector reported by enumeration is inside the bound and non-zero", "statement": "Each solution passed to the evaluator is a non-zero integer vector whose reported squared length is the true one and does not exceed the bound in force (and each pruning bound on projections).", "quantifier": "for all GSO data, all pruning profiles, all radii, all evaluator strategies", "why_tests_cant": "For-all over inputs and over moments at which the bound shrinks.", "anchors": ["fplll/enum/enumerate_base.cpp", "fplll/enum/enumerate.cpp: process_solution"]}
{"id": "C20", "title": "Enumeration visits each candidate up to sign", "statement": "With a fixed bound, enumeration reports every non-zero coefficient vector within the (pruned) bound exactly once up to sign, and never both x and -x.", "quantifier": "for all GSO data, all monotone bounds", "why_tests_cant": "Completeness of a search cannot be established by samples.", "anchors": ["fplll/enum/enumerate_base.cpp", "fplll/enum/enumerate_base.h: next_pos_up"]}
{"id": "C21", "title": "Zig-zag order", "statement": "At each tree level the candidates visited are all integers, each exactly once, in order of non-decreasing distance from the real centre, so stopping at the first candidate outside the bound loses nothing.", "quantifier": "for all rational centres", "why_tests_cant": "All centres, all positions in an infinite sequence.", "anchors": ["fplll/enum/enumerate_base.cpp: dx, ddx", "fplll/enum/enumerate_base.h: next_pos_up"]}
{"id": "C22", "title": "Cached centre sums are never stale", "statement": "The incremental centre computation (center_partsums with center_partsum_begin / lazily recomputed ranges) always yields the same centre as recomputing it from all coordinates above.", "quantifier": "for all search histories", "why_tests_cant": "Depends on the path in the tree; the cache range logic must be right at each backtrack.", "anchors": ["fplll/enum/enumerate_base.cpp: enumerate_recursive, enumerate_loop, center_partsum_begin"]}
{"id": "C23", "title": "Recursive and iterative closest-vector enumeration agree", "statement": "For CVP with resets (max_indices), the distance reported for every leaf equals the true squared distance of the lattice vector to the target, both in the recursive (default) and the iterative implementation, so CVPM_PROVED returns a closest vector.", "quantifier": "for all bases and targets", "why_tests_cant": "Wrong distances change the winner only for particular targets.", "anchors": ["fplll/enum/enumerate_base.cpp: enumerate_recursive, enumerate_loop", "fplll/enum/enumerate.cpp: reset", "fplll/svpcvp.cpp: closest_vector"]}
{"id": "C24", "title": "Best-N evaluator keeps the N best", "statement": "With EVALSTRATEGY_BEST_N_SOLUTIONS the evaluator holds, after any sequence of reported solutions, the N shortest ones reported so far, and the enumeration bound is the largest kept distance once N are held.", "quantifier": "for all N >= 1 and all sequences of reported solutions", "why_tests_cant": "All sequences, all ties.", "anchors": ["fplll/enum/evaluator.h: process_sol, FastEvaluator::eval_sol"]}
{"id": "C25", "title": "First-N and opportunistic evaluators", "statement": "With FIRST_N the enumeration stops reporting after N solutions and never stores more than N; with OPPORTUNISTIC_N the N most recently accepted (shortest) solutions are kept and the bound follows each accepted solution.", "quantifier": "for all N >= 1 and all sequences of reported solutions, including solutions arriving after the bound became zero (parallel enumeration)", "why_tests_cant": "Parallel arrival orders.", "anchors": ["fplll/enum/evaluator.h: process_sol"]}
{"id": "C26", "title": "Parallel enumeration explores every subtree exactly once", "statement": "With any number of threads and any schedule, each start node of the top-level list is processed by exactly one thread, all nodes are processed unless the search is aborted, and the result is the same set of explored subtrees as with one thread.", "quantifier": "for all thread counts and all interleavings", "why_tests_cant": "Schedules cannot be enumerated by tests.", "anchors": ["fplll/enum-parallel/enumeration.h:382-505 (enumerate_recursive: swirlys, threads, swirly_i)", "fplll/enum-parallel/enumlib_dim.cpp:43-69"]}
{"id": "C27", "title": "Parallel enumeration bound only shrinks and is never missed for ever", "statement": "The shared radius is non-increasing under any schedule, every solution accepted was inside the radius current at acceptance, and every thread that keeps running eventually enumerates with the newest radius.", "quantifier": "for all interleavings of threads", "why_tests_cant": "Schedules cannot be enumerated by tests.", "anchors": ["fplll/enum-parallel/enumeration.h:66,130-147,280-300 (signal, _thread_local_update, globals.A)", "fplll/enum/enumerate_ext.cpp:151-157"]}
{"id": "C28", "title": "thread_pool::run returns only after all its tasks completed", "statement": "When run/wait_work returns to the thread owning the pool, every task pushed before has finished executing exactly once, for every interleaving of the workers.", "quantifier": "for all numbers of workers and tasks and all interleavings", "why_tests_cant": "Schedules cannot be enumerated by tests.", "anchors": ["fplll/io/thread_pool.hpp: push, work, wait_work, wait_sleep, run, _init_thread"]}
{"id": "C29", "title": "Barrier releases nobody before all have arrived", "statement": "No thread leaves thread_pool::barrier::wait of a phase before all count threads have entered that phase, for all schedules admitted by the C++ standard (including spurious wake-ups of condition variables).", "quantifier": "for all schedules", "why_tests_cant": "Spurious wake-ups practically never happen in tests.", "anchors": ["fplll/io/thread_pool.hpp: barrier"]}
{"id": "C30", "title": "BKZ insertion puts the found vector into the basis", "statement": "After svp_postprocessing inserts a primitive combination of the block vectors, the row at the insertion position is plus or minus the found vector, all other operations are unimodular, so the lattice is unchanged.", "quantifier": "for all coefficient vectors with gcd 1, all block positions, single, unit-coordinate and generic insertion", "why_tests_cant": "All coefficient vectors; generic insertion is rarely hit.", "anchors": ["fplll/bkz.cpp: svp_postprocessing, svp_postprocessing_generic"]}
{"id": "C31", "title": "Generic (gcd) insertion terminates and keeps the combination", "statement": "The tree-wise Euclid procedure used for coefficient vectors without a unit entry terminates for each input and preserves the value of the linear combination in each step, for primal and dual insertion.", "quantifier": "for all coefficient vectors", "why_tests_cant": "All vectors.", "anchors": ["fplll/bkz.cpp: svp_postprocessing_generic, dual insertion"]}
{"id": "C32", "title": "Transform stays valid through BKZ insertion", "statement": "When a transform matrix is maintained, after BKZ inserts a vector (any of the insertion cases) the basis still equals the transform times the original basis.", "quantifier": "for all coefficient vectors and bases", "why_tests_cant": "The generic insertion path with negative coefficients is rarely executed.", "anchors": ["fplll/gso.cpp: negate_row_of_b", "fplll/bkz.cpp: svp_postprocessing_generic"]}
{"id": "C33", "title": "Block rerandomisation terminates and preserves the lattice", "statement": "rerandomize_block(min_row,max_row,density) terminates with probability one and only applies unimodular operations within the block.", "quantifier": "for all min_row < max_row, all random number streams", "why_tests_cant": "Termination depends on the random stream and on the block size 2 corner case.", "anchors": ["fplll/bkz.cpp: rerandomize_block"]}
{"id": "C34", "title": "Zero rows end up in front, order of others unchanged", "statement": "zeros_first moves the trailing zero rows to the front keeping the relative order of the other rows, and applies the same permutation to u and u_inv_t; zeros_last does the opposite.", "quantifier": "for all matrices", "why_tests_cant": "All positions of zero rows.", "anchors": ["fplll/util.cpp: zeros_first, zeros_last"]}
{"id": "C35", "title": "LLL wrapper: success means the last proved run succeeded", "statement": "Wrapper::lll (method LM_WRAPPER) reports success only if its last proved reduction succeeded, whatever sequence of heuristic failures happened before, and it always performs finitely many calls.", "quantifier": "for all sequences of outcomes of the inner reductions", "why_tests_cant": "The sequences of numerical failures are not producible by tests.", "anchors": ["fplll/wrapper.cpp: Wrapper::lll, heuristic_loop, proved_loop, last_lll, call_lll"]}
{"id": "C36", "title": "HLLL wrapper: failure is reported", "statement": "hlll_reduction with LM_WRAPPER returns a failure status when the Householder reduction did not succeed.", "quantifier": "for all sequences of outcomes of the inner reductions", "why_tests_cant": "Tests only see successful runs.", "anchors": ["fplll/wrapper.cpp: Wrapper::hlll, call_hlll, hlll_proved_loop, hlll_reduction_wrapper"]}
{"id": "C37", "title": "HLLL checks size reduction with eta", "statement": "A successful HLLL run guarantees |R(k,i)| <= eta*R(i,i) + theta*R(k,k) for i<k, i.e. the size-reduction test uses the parameter eta given by the user.", "quantifier": "for all inputs, parameters", "why_tests_cant": "Tests check the reduced bases with the same code.", "anchors": ["fplll/hlll.cpp: verify_size_reduction, compute_eR", "fplll/hlll.h"]}
{"id": "C38", "title": "HLLL preserves the lattice and works for each number of rows", "statement": "HLLLReduction::hlll only applies unimodular operations for any floating-point behaviour, and is defined for every number of rows >= 1.", "quantifier": "for all bases, all floating-point behaviours", "why_tests_cant": "All behaviours; one-row bases are not in the tests.", "anchors": ["fplll/hlll.cpp: hlll, size_reduction", "fplll/householder.cpp"]}
{"id": "C39", "title": "Matrix text output can be read back", "statement": "Reading a matrix of integers from the text printed for it gives back the same matrix, for every matrix and for each print mode accepted by the reader; ill-formed text is rejected with the stream failed and a matrix that is consistent.", "quantifier": "for all integer matrices; all character streams", "why_tests_cant": "All sizes/values and all malformed streams.", "anchors": ["fplll/nr/matrix.cpp: print, read", "fplll/nr/nr_Z_mpz.inl: operator>>"]}
{"id": "C40", "title": "resize/transpose keep contents", "statement": "After any history of resize/set_rows/gen_zero/transposes, entries that stay inside the matrix keep their value, newly exposed entries are the default, and transpose yields exactly the transposed matrix.", "quantifier": "for all histories of resizing", "why_tests_cant": "Capacity left over by earlier sizes (stale rows) matters.", "anchors": ["fplll/nr/matrix.cpp: resize, transpose", "fplll/nr/matrix.h"]}
{"id": "C41", "title": "Conversion to machine integers is lossless or refused", "statement": "convert(Ato, Afrom, buffer) returns true only if all entries are copied exactly and fit with `buffer` spare bits; whenever all entries fit it returns true.", "quantifier": "for all integer matrices and buffers", "why_tests_cant": "All values near the limits.", "anchors": ["fplll/util.cpp: convert", "fplll/wrapper.cpp: set_use_long"]}
{"id": "C42", "title": "Integer generators produce matrices of the documented shape", "statement": "gen_intrel, gen_simdioph, gen_uniform, gen_ntrulike(2), gen_qary, gen_trg produce for all random streams the documented structure (all entries defined, entries in the documented ranges, block structure), hence full-rank lattices with the documented determinant/volume.", "quantifier": "for all dimensions, bit sizes, random streams", "why_tests_cant": "Random streams and dimensions.", "anchors": ["fplll/nr/matrix.cpp: gen_*"]}
{"id": "C43", "title": "Extraction of large floats to integer with exponent is faithful", "statement": "get_si_exp_we(expo, expo_add) on a double returns a machine integer and an exponent whose product differs from the scaled value by less than one unit of the exponent, without overflow, and equals it exactly when the scaled value is an integer below the limit; rnd_we rounds to the nearest integer.", "quantifier": "for all finite doubles and exponents", "why_tests_cant": "All 2^64 doubles times all exponents.", "anchors": ["fplll/nr/nr_FP_d.inl: get_si_exp_we, rnd_we"]}
{"id": "C44", "title": "dpe comparison and arithmetic are order-correct", "statement": "For normalised dpe numbers, dpe_cmp agrees with the order of the represented reals, products and quotients are normalised again, and addition is the exact sum up to half an ulp-sized relative error.", "quantifier": "for all dpe numbers in the exponent range", "why_tests_cant": "All mantissas and exponents.", "anchors": ["fplll/nr/dpe.h: dpe_cmp, dpe_normalize, dpe_add, dpe_mul"]}
{"id": "C45", "title": "CVP reset schedule is well formed", "statement": "The max_indices vector computed in closest_vector has, for each index, an index in range which is the position of the largest r in the prefix, the last one being d-1, so the enumerator never resets out of bounds.", "quantifier": "for all Gram-Schmidt profiles", "why_tests_cant": "All profiles, ties.", "anchors": ["fplll/svpcvp.cpp: closest_vector"]}
{"id": "C46", "title": "CVP initial radius is large enough", "statement": "The enumeration radius chosen by closest_vector always contains a lattice point (Babai's point), for all LLL-reduced bases and all targets.", "quantifier": "for all reduced bases of any dimension >= 1 and all targets", "why_tests_cant": "For-all over targets; dimension 1 not in tests.", "anchors": ["fplll/svpcvp.cpp: closest_vector (max_dist)"]}
{"id": "C47", "title": "shortest_vectors fills its outputs", "statement": "shortest_vectors returns on success at least one vector in its outputs.", "quantifier": "for all bases and max_sols >= 1", "why_tests_cant": "Corner case max_sols = 1.", "anchors": ["fplll/svpcvp.cpp: shortest_vectors"]}
{"id": "C48", "title": "Pruning coefficient vectors survive save/load and are enforced to be valid", "statement": "Saving internal pruning bounds to the user vector and loading them again gives the same bounds, and the enforce step always yields a non-decreasing vector between the minimal coefficients and one, for all inputs.", "quantifier": "for all lengths (even and odd) and all real inputs", "why_tests_cant": "All vectors.", "anchors": ["fplll/pruner/pruner.h: enforce", "fplll/pruner/pruner_util.cpp: save_coefficients, load_coefficients"]}
{"id": "C49", "title": "Pruned volume is a probability and monotone", "statement": "relative_volume of a bounding profile is between 0 and 1, equals 1 for the all-ones profile and grows when bounds are relaxed (exact arithmetic).", "quantifier": "for all dimensions and non-decreasing profiles in (0,1]", "why_tests_cant": "All profiles.", "anchors": ["fplll/pruner/pruner_simplex.h: relative_volume, integrate_poly, eval_poly"]}
{"id": "C50", "title": "llldiff decides equality of bases up to row signs", "statement": "llldiff reports two bases as equal exactly when each row of one equals plus or minus the same row of the other.", "quantifier": "for all pairs of matrices", "why_tests_cant": "Rows with zero leading entry.", "anchors": ["fplll/llldiff.cpp"]}
{"id": "C51", "title": "BKZ auto-abort and loop control terminate", "statement": "The BKZ main loop performs a number of tours bounded by max_loops (when set) and by the auto-abort slope test, and a tour that changes nothing ends the reduction with success.", "quantifier": "for all slope sequences and tour outcomes", "why_tests_cant": "All sequences of tours.", "anchors": ["fplll/bkz.cpp: bkz, BKZAutoAbort::test_abort"]}
{"id": "C52", "title": "Command-line svp/cvp with coordinates output", "statement": "fplll -a svp -of c and -a cvp -of c print the coordinates of the found vector with respect to the input basis.", "quantifier": "for all input bases", "why_tests_cant": "For every input: the behaviour does not depend on data.", "anchors": ["fplll/main.cpp: svpcvp"]}
{"id": "C53", "title": "MatGSOGram tracks the Gram matrix of the transformed rows", "statement": "After any sequence of row operations, swaps and moves on a MatGSOGram object, the stored Gram matrix equals T*G*T^t for a unimodular T, and the tracked transform u (and its transposed inverse) has been multiplied by exactly that T (and its transposed inverse).", "quantifier": "for all symmetric integer matrices G and all legal histories of operations", "why_tests_cant": "All histories; the failing ones need a move past the rows discovered so far.", "anchors": ["fplll/gso_gram.cpp: row_add, row_sub, row_addmul_*, row_swap, move_row", "fplll/lll.cpp:68-71,145-147"]}
{"id": "C54", "title": "closest_vector's Babai loop terminates", "statement": "The loop in closest_vector that subtracts Babai's lattice point until all coefficients are in {-1,0,1} terminates for every LLL-reduced basis and every integer target.", "quantifier": "for all LLL-reduced bases and all targets", "why_tests_cant": "Only targets exactly half way between lattice hyperplanes in several directions at once make the loop alternate; random targets never do.", "anchors": ["fplll/svpcvp.cpp: closest_vector (lines 572-597), babai", "fplll/nr/nr_FP_mpfr.inl: rnd"]}
{"id": "C55", "title": "closest_vector returns a closest lattice vector", "statement": "For an LLL-reduced basis with at least two rows and any integer target, whenever closest_vector returns it returns success, and the coordinates it outputs (Babai part plus enumeration part) give a lattice vector at minimal Euclidean distance from the target; with CVPM_FAST in both enumeration implementations, with CVPM_PROVED in the iterative one.", "quantifier": "for all LLL-reduced bases and all targets, exact arithmetic", "why_tests_cant": "Tests check a handful of targets; minimality is a statement about infinitely many lattice points.", "anchors": ["fplll/svpcvp.cpp: closest_vector, babai, get_gscoords"]}
{"id": "C56", "title": "BKZ reports failures of its tours through its status", "statement": "When an LLL call inside a tour fails, bkz() returns false and the status of the object is the failure status.", "quantifier": "for all flags and all sequences of tour outcomes", "why_tests_cant": "LLL failures inside a tour need numerically hard inputs.", "anchors": ["fplll/bkz.cpp: bkz, svp_preprocessing, svp_reduction, set_status"]}
{"id": "C57", "title": "The evaluator keeps the first shortest sub-solution of every level", "statement": "After any sequence of eval_sub_sol calls, sub_solutions[offset] holds the first of the shortest vectors reported for that offset with the coordinates before offset set to zero, is unused iff nothing was reported for it, and the list is exactly as long as the largest offset requires; the ordinary solutions are not touched.", "quantifier": "for all sequences of reports and all offsets", "why_tests_cant": "Tests never inspect sub-solutions for arbitrary report orders and ties.", "anchors": ["fplll/enum/evaluator.h:191-205 FastEvaluator::eval_sub_sol", "fplll/enum/evaluator.cpp:229-245"]}
{"id": "C58", "title": "Parallel enumeration is memory safe and free of data races", "statement": "For every number of threads, every access to globals.signal is inside its 256 entries, and no thread reads a non-atomic member of the main object while another thread writes it.", "quantifier": "for all thread counts and all interleavings", "why_tests_cant": "Needs more than 256 threads, or a schedule in which a task finishes before another one is started.", "anchors": ["fplll/enum-parallel/enumeration.h:66,130-138,461-500"]}
{"id": "C59", "title": "shortest_vector returns a shortest non-zero vector", "statement": "For a basis of linearly independent rows, shortest_vector (SVPM_FAST or SVPM_PROVED) succeeds and returns the coordinates of a shortest non-zero lattice vector, although rows after last_useful_index are dropped and the search starts from the shortest basis vector; the same for the dual lattice (SVP_DUAL).", "quantifier": "for all integer bases with exact Gram-Schmidt data, both methods, both enumeration loops", "why_tests_cant": "Tests compare a handful of lattices with stored answers; a dropped row or a bound that is too small shows only for special shapes.", "anchors": ["fplll/svpcvp.cpp:32-72 last_useful_index, get_basis_min", "fplll/svpcvp.cpp:84-241,278-437 shortest_vector_ex", "fplll/enum/evaluator.cpp:277-309"]}
{"id": "C60", "title": "Success probability of a pruning profile is a probability, monotone and bracketed", "statement": "svp_probability of a valid coefficient vector lies between 0 and 1, is 1 without pruning, does not decrease when bounds are relaxed, and for full vectors lies between svp_probability_lower and svp_probability_upper (exact arithmetic).", "quantifier": "for all dimensions and all non-decreasing profiles in (0,1], half and full vectors, any shell ratio in (0,1)", "why_tests_cant": "A continuum of profiles; tests compare a few table values with tolerance.", "anchors": ["fplll/pruner/pruner_prob.cpp: svp_probability_evec, svp_probability_lower, svp_probability_upper, svp_probability"]}
{"id": "C61", "title": "Estimated enumeration cost: the volume of every level, positive, bounded by the unpruned cost, growing with the bounds", "statement": "single_enum_cost of a half profile b writes for every level of even dimension 2k the number symmetry * ball(2k) * R^(2k) / vol(projected block) * (part of the ball left by the bounds); every level is positive, at most the unpruned level if the bounds are at most one, and the returned cost is the sum of detailed_cost. Relaxing bounds never makes the estimate smaller; for full profiles the cost lies between the lower and the upper estimate and is the sum of detailed_cost.", "quantifier": "for all dimensions, all positive Gram-Schmidt profiles and all non-decreasing positive bounds, exact arithmetic", "why_tests_cant": "A continuum of profiles and shapes; the tests compare a few numbers with large tolerance.", "anchors": ["fplll/pruner/pruner_cost.cpp:8-113", "fplll/pruner/pruner.h:552-559"]}
{"id": "C62", "title": "Normalisation of the basis shape cancels; Gaussian heuristic, expected solutions and number of trials are exact", "statement": "load_basis_shape normalises so that the last inverse partial volume is one, and the normalisation cancels in every estimate; several shapes are averaged; gaussian_heuristic is the squared radius of the ball with the volume of the lattice; expected_solutions is the estimate of the deepest level, monotone and bracketed by its lower and upper variant; target_function and repeated_enum_cost use the smallest number of trials >= 1 with which the target is reached.", "quantifier": "for all dimensions, radii, targets and positive Gram-Schmidt profiles, exact arithmetic", "why_tests_cant": "Normalisation bugs cancel in most tests; the number of trials is a real number checked only through rounded costs.", "anchors": ["fplll/pruner/pruner_util.cpp:24-96", "fplll/pruner/pruner_prob.cpp:77-130", "fplll/pruner/pruner_cost.cpp:136-200"]}
{"id": "C63", "title": "Exact HLLL: a successful run returns a reduced basis", "statement": "If hlll ends with success then the basis returned has an R-factor (lower triangular, nonnegative diagonal, same inner products of rows) with |R_ij| <= delta R_jj + theta R_ii for j < i and delta R_ii^2 <= R_{i+1,i}^2 + R_{i+1,i+1}^2; for independent rows this is the only R-factor and its diagonal is positive.", "quantifier": "for all integer bases with 2 <= rows <= columns, all delta, eta, theta, with and without row exponents, whatever uninitialised memory holds, floating-point operations replaced by exact real ones", "why_tests_cant": "The R-factor kept in R, V, sigma, bf, R_history and norm_square_b is updated incrementally through swaps, recoveries and size reductions; a stale row shows only on particular sequences of swaps.", "anchors": ["fplll/hlll.cpp:26-353", "fplll/hlll.cpp:448-499", "fplll/householder.cpp:27-261", "fplll/householder.cpp:372-559"]}
{"id": "C64", "title": "is_hlll_reduced decides HLLL-reducedness", "statement": "is_hlll_reduced returns RED_SUCCESS exactly if the R-factor of b satisfies |R_ji| <= eta R_ii + theta R_jj for i < j and delta R_ii^2 <= R_{i+1,i}^2 + R_{i+1,i+1}^2; in particular it accepts what hlll returns with success when given delta in the place of eta. This holds with and without row exponents.", "quantifier": "for all integer bases with rows <= columns and all delta, eta, theta, exact real operations; the refutation with 53-bit mpfr operations", "why_tests_cant": "The tests run it without row exponents on one or two reduced bases per size; a wrong exponent in the comparison does not show there.", "anchors": ["fplll/hlll.cpp:506-586", "fplll/householder.cpp:263-370", "fplll/householder.h:632-644"]}
{"id": "C65", "title": "Strategies: loading, lookup of pruning parameters, default tables", "statement": "Strategy::get_pruning returns an element of pruning_parameters whose gh_factor is nearest to radius/gh, the first one among equally near ones, and is defined exactly if the list is not empty. load_strategies_json yields a table that reaches up to the largest block size of the document, holds for every size the last entry of that size (with the default parameters if it gives none) and an empty strategy for sizes without an entry, so get_pruning is defined for every entry. BKZParam with an empty table fills sizes 0..block_size with empty strategies. LinearPruningParams(block_size, level) gives block_size coefficients in (0,1], the first 1, non-increasing.", "quantifier": "for all lists of parameters and all documents, binary64 arithmetic with rounding; factors and quotient below 2^1022, a factor within 2^80 of the quotient (refuted without this); 1 <= block_size (refuted for 0)", "why_tests_cant": "The tests load the one shipped file and look up a few sizes; ties, far quotients, duplicate and missing entries are not tried.", "anchors": ["fplll/bkz_param.cpp:11-37", "fplll/bkz_param.cpp:62-78", "fplll/bkz_param.cpp:80-157", "fplll/bkz_param.h:34-54", "fplll/bkz_param.h:109-132"]}
{"id": "C66", "title": "BKZ, SD-BKZ and slide reduction: block structure, recursion and trials", "statement": "With a strategy table that has for every size 1..min(block_size, num_rows) an entry with preprocessing sizes smaller than the entry and pruning vectors long enough, every run stays inside rows 0..num_rows-1, reads the table and the pruning vectors inside their bounds, and every block reduction, including its recursive preprocessing, touches (beyond LLL and size reduction) only the rows of its block; each block reduction and each tour ends; HKZ ends after one tour. Without preprocessing a BKZ tour reduces the blocks at rows 0..n-2 in order with min(block_size, n-k) rows, an SD tour the dual blocks downwards and then the primal blocks upwards, and the trials on a block go on until the probability that all of them failed is at most 1 - min_success_probability up to rounding. The tables made by BKZParam without strategies, and loaded documents under the conditions stated, are such tables.", "quantifier": "for all bases and all behaviour of LLL, size reduction and enumeration (arbitrary oracle), all tables, all block sizes >= 2, 1 <= num_rows; min_success_probability in [0,1) and, for blocks of three rows, not above the promised probability; binary64 arithmetic for the probabilities. Refuted without these conditions.", "why_tests_cant": "The tests run a few dimensions with the shipped strategies; a table that is too short, preprocessing that does not get smaller, zero bases and SD-BKZ with large blocks do not occur there.", "anchors": ["fplll/bkz.cpp:43-126", "fplll/bkz.cpp:274-520", "fplll/bkz.cpp:522-672"]}
{"id": "C67", "title": "Shape of a basis: slope, determinants, slide potential, Gaussian heuristic bound", "statement": "get_current_slope is the slope of the least-squares line through ln r_i, and no other line fits as well; it is ln q for a geometric series, does not change under scaling, and is that of the reversed dual. exp(get_log_det) is the squared volume, get_root_det the geometric mean of the r_i. get_slide_potential is the sum of the logarithms of the squared volumes of all proper prefixes of blocks. adjust_radius_to_gh_bound takes the minimum of the radius and gh_factor times the squared radius of the ball whose volume is that of the block. The enumeration radius of BKZ is delta r_first (1/r_last for a dual block) capped by the Gaussian heuristic of the lattice enumerated, and pruning parameters are chosen by the quotient of this radius and the Gaussian heuristic.", "quantifier": "for all positive diagonals r_i with any row exponents, all ranges, block sizes, factors; exact real arithmetic, lgamma exact at half-integers. Refuted: one row (0/0), start_row of the slide potential, the cap for dual blocks, the quotient for short first vectors and for capped radii.", "why_tests_cant": "One test compares the slope of one basis with a constant; the Gaussian heuristic, the potential and dual radii are not tested, and a wrong cap or quotient only makes the reduction slower or weaker.", "anchors": ["fplll/gso_interface.cpp:197-276", "fplll/bkz.cpp:82-98", "fplll/bkz.cpp:310-323"]}
{"id": "C68", "title": "Optimiser of the pruning coefficients: termination, cost, shape", "statement": "enforce makes every vector ordered, at most one, above the minimal coefficients, and leaves such vectors alone. Gradient descent and Nelder-Mead terminate, throw none of the two exceptions of Nelder-Mead and do not raise the cost (the enforced vector's cost for Nelder-Mead); the local adjustments terminate, decr_single does not raise the cost, incr_prob lowers no entry. The optimisation without PRUNER_SINGLE terminates; what it returns is non-increasing, starts with one and costs no more than the vector after the first core. incr_prob and decr_prob terminate, and reach the target, or cannot move, or have made 10001 steps; local_adjust_prob ends within five percent of the target or cannot move.", "quantifier": "for all basis shapes, radii, metrics, targets, preprocessing costs and flags; exact real arithmetic; detailed costs positive (even dimension). Refuted: local_adjust_prob need not terminate; with PRUNER_SINGLE the minimal coefficients can make the target unreachable; smoothing can go below the minimal coefficients; the worst vertex of Nelder-Mead need not be the worst.", "why_tests_cant": "Tests run the optimiser on a few bases and compare one cost with another; whether it ends for every shape and target, and whether the target can be met at all, cannot be found by running it.", "anchors": ["fplll/pruner/pruner_optimize.cpp:8-160", "fplll/pruner/pruner_optimize_tc.cpp:11-825", "fplll/pruner/pruner_optimize_tp.cpp:8-203", "fplll/pruner/pruner.h:1012-1053"]}
{"id": "C69", "title": "incr_prob and decr_prob in binary64: odd dimensions never move", "statement": "In an odd dimension the last entry of detailed_cost is never written and stays zero, so its weight is infinite and all other weights are divided by infinity: optimize_coefficients_incr_prob and optimize_coefficients_decr_prob leave after one turn and return the profile they were given, although its metric does not meet the target and another profile does; the NaN in the last entry is hidden by save_coefficients. In an even dimension both terminate, no coefficient becomes a NaN: the result starts with 1.0, does not increase, lies in (0, 1] and respects the minimal coefficients; incr_prob lowers no coefficient.", "quantifier": "for all dimensions, targets (also NaN), metrics, profiles that start with 1.0, do not increase, are positive and respect the minimal coefficients (for decr_prob in odd dimension also at least 1e-4), and costs of the levels of at least 2^-1000 (also infinite); FT = double, round to nearest even.", "why_tests_cant": "The tests of the pruner compare the cost and probability of the final result, which later steps of the optimiser repair; the NaN is overwritten before anyone can read it.", "anchors": ["fplll/pruner/pruner_optimize_tp.cpp:8-140", "fplll/pruner/pruner_cost.cpp:8-113", "fplll/pruner/pruner.h:1012-1053", "fplll/nr/nr_FP_d.inl:61-68", "fplll/pruner/pruner_util.cpp:98-131"]}
{"id": "C70", "title": "LLL in exact arithmetic always succeeds and stays within its iteration limit", "statement": "LLLReduction::lll(0, 0, kappa_end) on linearly independent rows, with exact floating-point arithmetic, rounding to a nearest integer and exact conversions, returns true with RED_SUCCESS, finds no zero row, makes at most m insertions for every m with N^(d(d-1)/2) * delta^(m+1) < 1, where N bounds the squared norms of the rows, never fails in babai, and leaves a reduced basis. It does so within the iteration limit of lll.cpp:79-80, also as that limit is computed in doubles, when at most 2^16 columns and fewer than 32768 rows are used and the limit fits in a long long. The limit is undefined behaviour for delta = 1, for delta just below 1 and (through int products) from 32768 rows on; with no iterations allowed even a reduced basis is reported as a failure.", "quantifier": "for all bases, histories of the GSO object, flags (row exponents, integer Gram matrix, Siegel, early reduction), 1/2 <= eta, eta^2 < delta < 1, kappa_end, logarithms within one percent, iteration limits of at least the required value.", "why_tests_cant": "The limit is never reached in tests; that no input whatsoever reaches it, and that babai needs no more than two passes, follows only from the potential argument over all bases.", "anchors": ["fplll/lll.cpp:44-164", "fplll/lll.cpp:79-80", "fplll/lll.cpp:166-222", "fplll/nr/matrix.cpp:127-134", "fplll/gso.h:272-275"]}
{"id": "C71", "title": "HKZ and BKZ reduction in exact arithmetic deliver reduced bases", "statement": "BKZReduction::bkz() with exact arithmetic, empty strategies and primal tours, on linearly independent rows: it returns without an exception, and the rows span the same lattice. With a block size of at least the number of rows it returns RED_SUCCESS and every Gram-Schmidt vector is, up to the factor delta, a shortest non-zero vector of the projected lattice (HKZ for delta = 1); all rows but the last are size-reduced. A tour from an LLL-reduced basis that reports itself clean changed nothing, and the basis is BKZ-reduced. Two expectations are false: RED_SUCCESS does not imply a BKZ-reduced basis when the start is not LLL-reduced, and the last row of the result need not be size-reduced, so that an LLL-reduced basis can become one that is not.", "quantifier": "for all bases with at least two independent rows, histories of the GSO object without integer Gram matrix and inverse transform, block sizes, recursive or iterative enumeration, 1/2 <= eta, eta^2 < delta of LLL < 1, delta of LLL <= delta <= 1, any normalisation exponent, sufficient fuel of the enumeration and sufficient iteration limit of LLL.", "why_tests_cant": "The tests compare a few outputs with stored shortest vectors; that every later block leaves the earlier Gram-Schmidt vectors shortest, for all bases, needs an invariant over LLL, enumeration and insertion together, and the two failures need bases that random tests do not hit.", "anchors": ["fplll/bkz.cpp:100-126", "fplll/bkz.cpp:274-441", "fplll/bkz.cpp:522-672", "fplll/bkz.cpp:438", "fplll/bkz.cpp:812-846", "fplll/bkz.cpp:946-956"]}
{"id": "C72", "title": "Splitting the enumeration tree hands out every vector once", "statement": "Calling Enumerator::enum_next until it returns false ends, and every vector that is within the bounds of all the calls lies, up to sign, in exactly one of the subtrees returned; every subtree returned is within the bound at its own level. Enumerating each subtree with the bound reports each non-zero vector within the bound exactly once up to sign, and nothing else. sphere_volume satisfies the recursion of the volume of the unit ball. Two expectations are false: when the estimate equals max_volume the first call starts above a level that it then enters, and a vector and its negative lie in different subtrees; in dimension 1 no vector is reported at all.", "quantifier": "for all dimensions, Gram-Schmidt data with positive r, bounds that change from call to call, min_level, max_volume > 0, rounding to a nearest integer with any rule for ties; the exactly-once claims unless the estimate of some level equals max_volume, the enumeration claim for dimension at least 2.", "why_tests_cant": "Nothing in the repository calls the class, and that a partition of an infinite tree by a moving bound neither loses nor repeats a vector needs an induction over the sweep; the tie needs an exact coincidence of two numbers.", "anchors": ["fplll/enum/topenum.cpp:20-108", "fplll/enum/topenum.cpp:43", "fplll/enum/topenum.cpp:64", "fplll/enum/topenum.h:26-44", "fplll/util.cpp:207-247"]}
{"id": "C73", "title": "The three integer types compute the integers of their common interface", "statement": "An operation of Z_NR<long> that is defined returns a long congruent to the documented integer modulo 2^64, and it is defined and exact when the documented value fits (and, for addmul, addmul_si and submul, the product; for shifts to the left, when the number is non-negative). Z_NR<mpz_t> is exact; Z_NR<double> is exact while result and product have at most 53 bits. exponent returns the least e with |x| < 2^e, set_str reads every decimal numeral or refuses one out of range, nextprime returns the next prime of a non-negative number, randb stays in its range. Expectations that are false: exponent of Z_NR<long> is one too large for some negative numbers beyond 2^53; mod gives different results in the three types for negative dividends; set_str of Z_NR<long> accepts text without digits and refuses LONG_MAX after an earlier range error, that of Z_NR<double> rounds to single precision; nextprime of a negative long is never the next prime; after a large random number of Z_NR<mpz_t> the generator is seeded anew, by 0 for all multiples of 2^32.", "quantifier": "for all values of the three types (64-bit long, finite binary64), all arguments of the C types of the interface, all decimal numerals, all states of errno and all random generators.", "why_tests_cant": "The conditions are boundary cases of 64-bit arithmetic: overflow in an intermediate product, negative shifts and rounding of a long just below a power of two appear for single operands among 2^64.", "anchors": ["fplll/nr/nr_Z_l.inl:20-235", "fplll/nr/nr_Z_l.inl:44", "fplll/nr/nr_Z_mpz.inl:29-209", "fplll/nr/nr_Z_d.inl:29-206", "fplll/nr/nr_Z.inl:149-209"]}
{"id": "C74", "title": "Gram-Schmidt coordinates and Babai's nearest plane of the GSO objects", "statement": "from_canonical returns the coordinates of a vector on the Gram-Schmidt vectors b*_start, ...; to_canonical with start = 0 returns the sum of v_i b*_i, and for every start a rational combination of the rows from start on that has the coordinates v. The two are inverse: from after to is the identity, to after from is the orthogonal projection on the span of the rows. babai returns integers w such that the difference of the target and w B has coordinates of at most 1/2 on b*_start, ..., b*_(start+dim-1); an integer combination of the rows is recovered exactly, and a target in the span is at squared distance at most a quarter of the sum of the |b*_i|^2. False: to_canonical with start > 0 does not return v B* as documented; vectors shorter than dimension, or targets shorter than the rows, are read outside their bounds.", "quantifier": "for all bases with non-zero Gram-Schmidt norms, all targets, all start and dimension within the basis, rounding to a nearest integer with any rule for ties; exact arithmetic.", "why_tests_cant": "Tests compare a few vectors; that two triangular systems and a rounding sweep solve the geometric problem for every start and dimension is an algebraic statement about all bases.", "anchors": ["fplll/gso.cpp:405-509", "fplll/gso_interface.cpp:277-311", "fplll/gso.h:190-236", "fplll/gso_interface.h:460-480"]}
{"id": "C75", "title": "Error bounds of the error-bounded evaluators", "statement": "If get_max_error_aux(D, true) returns DE, every vector whose exact squared norm is at most D has, at every level of the enumeration, a squared norm computed in double precision that differs from the exact one by at most DE; with false the same for vectors whose computed norm is at most D. Additions and products done in the default rounding to nearest cost a factor (1 - eps)^(2d+1), eps the relative error of mpfr. So no vector of norm at most D is cut off with the radius shortest_vector sets, nor with the one int_dist2Float passes back, and get_max_error of the fast evaluator bounds the relative excess of the result over the optimum if the lower bound of the optimal norm is positive. init_delta_def turns the documented relative error on r into the absolute one. False: get_max_error returns a value below -1 when that lower bound is negative; the bound on r is negative when the relative error exceeds 1 and the failure is not noticed; the bound on mu uses the column where the documented one uses the row.", "quantifier": "for all dimensions, matrices mu and r and error bounds containing the exact values, all integer vectors with coordinates of at most 2^53, all D, any directed roundings of mpfr and any rounding of double precision without underflow.", "why_tests_cant": "The bound is a worst case over all roundings of all operations; random inputs stay far below it, so a missing error term is never observed.", "anchors": ["fplll/enum/evaluator.cpp:20-211", "fplll/enum/evaluator.cpp:247-269", "fplll/enum/evaluator.cpp:345-355", "fplll/svpcvp.cpp:168-174", "fplll/enum/enumerate_base.cpp:195-231"]}
{"id": "C76", "title": "Interface to external enumerators", "statement": "ExternalEnumeration hands over, for either layout of the matrix, exactly the entries mu[j][i], the squared norms scaled by 2^-normexp and the pruning bounds (1 without pruning), leaves all other entries of the caller's matrix alone and overruns arrays shorter than the block; in the primal case these are the arrays, the exponent and the bounds per level that the internal enumerator prepares for itself. Only vectors of full length reach the evaluator; those of sub-solutions are zero below the offset. An enumerator that keeps to the bounds returned by the callback hands over no solution above the evaluator's current bound; the exponent is the largest one of the squared norms, at least -1. enumlib picks the template of the very dimension exactly for 11 <= dim <= 160 and dim at most the last multiple of 10 within FPLLL_MAX_PARALLEL_ENUM_DIM, primal only; in every other case, and for a target or subtree, the internal enumerator runs on unchanged arguments. The sub-solutions reported are those shorter than the basis vector. False: the maximal dimension is supported when no multiple of 10; fmaxdist is updated as by the internal enumerator; in the dual case bound and exponent are those of the internal enumerator; get_nodes() is the number of nodes from 2^31 on.", "quantifier": "for all bases, blocks, pruning vectors, array sizes, evaluators, and all external enumerators seen as finite trees of callbacks.", "why_tests_cant": "The default enumerator handles only the primal case with exponent 0 in small dimensions in the tests; other enumerators, the dual case and node counts above 2^31 are out of reach.", "anchors": ["fplll/enum/enumerate_ext.cpp:48-167", "fplll/enum/enumerate.h:48-118", "fplll/enum-parallel/enumlib.cpp:93-169", "fplll/enum-parallel/enumlib_dim.cpp:47-141", "fplll/enum/enumerate.cpp:91-152"]}
{"id": "C77", "title": "Precision asked for by the proved algorithms", "statement": "The rho returned by gso_min_prec is at least ((1+eta)^2+eps)/(delta-eta^2), and the precision n satisfies 2^n >= 2^5 d^2 rho^d / eps, whatever the results of the directed roundings; l2_min_prec has the constant 10 and an eps that is at most the given one, eta - 1/2 and 1 - delta. With at least that precision the documented relative error on r is at most eps/(8 d), that on mu at most eps/(2 d). With exact operations the value is the least one; the value of hlll_min_prec is the least p with 2^p (1-delta)(eta-theta-1/2) theta >= 2^(17+c d/2) d^3 phi(d) alpha^d, alpha the largest ratio x of diagonal entries with delta x^2 <= 1 + (eta x + theta)^2. False: l2_min_prec is defined for all LLL parameters (delta = 1 or eta = 1/2, and a matrix without rows, convert an infinity to int); the checks of hlll_min_prec exclude undefined results (theta = 0, eta^2 > (1+theta^2) delta, no rows).", "quantifier": "for all dimensions, parameters and all roundings upwards and downwards (hlll_min_prec: exact operations).", "why_tests_cant": "A precision that is a few bits too small shows up only on adversarial lattices; the undefined conversions give some integer on each platform.", "anchors": ["fplll/util.cpp:44-202", "fplll/util.h:63-85", "fplll/wrapper.cpp:44-71", "fplll/wrapper.cpp:579-593"]}
{"id": "C78", "title": "Dual enumeration, dual SVP reduction and SD-BKZ in exact arithmetic", "statement": "Enumeration with dual = true finds a shortest non-zero vector of the dual of the projected block within the radius, or shows that there is none: the solution, reversed, consists of its inner products with the rows. Dual SVP reduction of a block returns, keeps the lattice, leaves the rows up to the end of the block size-reduced and the block dual-reduced up to delta. SD-BKZ with block size at most the number of rows returns without exception or undefined behaviour, keeps the lattice and the independence of the rows. A self-dual tour that reports no change over an LLL-reduced basis changed nothing; when the main loop ends with such a tour, the basis is LLL-reduced, its blocks at 1..d-beta are dual-reduced and those at 0..d-beta-1 reduced, whatever the starting basis. False: this holds for the basis returned with RED_SUCCESS (the HKZ reduction of the last block comes after the last tour).", "quantifier": "for all lattice bases with independent rows, blocks, block sizes, tours, parameters delta and eta in range, limits of LLL large enough, and all exponents.", "why_tests_cant": "A dual basis vector that is almost shortest passes any test of the profile; tests compare only lengths of first vectors.", "anchors": ["fplll/enum/enumerate.cpp:58-159", "fplll/bkz.cpp:128-358", "fplll/bkz.cpp:405-417", "fplll/bkz.cpp:443-463", "fplll/bkz.cpp:522-672"]}
{"id": "C79", "title": "Slide reduction in exact arithmetic", "statement": "Slide reduction with delta < 1 ends by itself: the repeated primal tours end, the number of tours needs no limit, and success is then reported. When the main loop ends with success, the basis generates the same lattice, is LLL-reduced and slide-reduced: every primal block starts with a shortest vector and every dual block (shifted by one) is dual-reduced, up to delta. With block size at least 3 and a number of rows that is not 2 modulo the block size, the whole call returns without exception or undefined behaviour, whatever the limit on the number of tours, with independent rows of the same lattice. False: the basis returned with RED_SUCCESS is size-reduced (number of rows 2 modulo the block size).", "quantifier": "for all lattice bases with independent rows, block sizes, numbers of tours, parameters delta and eta in range, limits of LLL large enough.", "why_tests_cant": "That the potential has stopped decreasing must imply reducedness of all blocks, including those reduced before later blocks were changed; tests look at the first vector. Termination is a statement about all inputs.", "anchors": ["fplll/bkz.cpp:465-520", "fplll/bkz.cpp:522-672", "fplll/gso_interface.cpp:228-258"]}
{"id": "C80", "title": "HLLL in exact arithmetic ends with success", "statement": "On linearly independent rows with 2 <= rows <= columns, 1/2 <= delta <= 1 and theta >= 0, HLLL ends within rows * (1 + sum of the Gram determinants of the leading rows) iterations of the main loop, with at most two passes of each size reduction, and reports success: neither RED_HLLL_SR_FAILURE nor RED_HLLL_NORM_FAILURE. The basis returned generates the same lattice and is reduced with eta = 1/2 and theta = 0. False: HLLL accepts every basis that is reduced with its own parameters (delta < 1/2).", "quantifier": "for all integer bases with independent rows, with and without row exponents, whatever uninitialised memory holds, floating-point operations replaced by exact real ones; the refutation with 53-bit mpfr operations", "why_tests_cant": "Termination is a statement about all inputs; that the norm test (hlll.cpp:97-108) never fires without rounding errors needs the history of the diagonal kept in prevR.", "anchors": ["fplll/hlll.cpp:26-173", "fplll/hlll.cpp:262-353", "fplll/hlll.cpp:371-499", "fplll/hlll.h:155-159"]}
{"id": "C81", "title": "Command line of the program fplll", "statement": "read_options accepts exactly the command lines made of the documented settings with at most one file name, and gives every option the value of its last setting (flags of BKZ add up); it reads no argument beyond argc, the only undefined behaviour is a number that is not an int; exit status 0 without a run only for help and version. Integers are read as written. The library is called with the algorithm, the parameters (last value or default) and the flags that the settings say, exactly if the integer type is available and fits the action and BKZ has a block size; otherwise the exit status is 1. The items printed are those of the output format in its order, and a transform that is printed was asked for. The pruner action is defined exactly if all four of its options are given. False: -r is ignored (it sets the constant c of HLLL); -nolll has an effect on hkz; the last -a decides the algorithm (sld, sdb stay in force); -a cvp with an empty target solves CVP (it solves SVP).", "quantifier": "for all argument lists, formats and any atof", "why_tests_cant": "The argument lists and formats are unbounded; reading past argv or an uninitialised field need not show in a test.", "anchors": ["fplll/main.cpp:21-93", "fplll/main.cpp:123-226", "fplll/main.cpp:321-473", "fplll/main.cpp:477-802", "fplll/main.h:36-88"]}
{"id": "C82", "title": "Entry functions: choice of the arithmetic, global settings", "statement": "lll_reduction (not wrapper) and hlll_reduction run once, in a type that is compiled in, the type asked for, and in mpfr with the precision asked for; without a request the proved method uses the cheapest type of dpe, dd, qd, mpfr that has the bits needed; the sentence 'the reduction is guaranteed' is printed exactly if the proved method runs over mpz in another type than double with enough bits. All other requests end in abort before a matrix is touched. The verification of HLLL leaves the basis alone and says truthfully whether its precision suffices. The default precision of MPFR and the FPU control word after a call that returns are those before it, also for bkz_reduction, hkz_reduction and run_pruner. bkz_reduction overwrites U and returns b_out = U b_in and the same lattice whenever the run of BKZ keeps them, also after a failure of LLL (then BKZ is not run) and after an exception. run_pruner works on rows of the matrix. False: the precision is restored after an exception of BKZ or of the pruner; BKZ in dd runs with the control word needed; a negative precision is refused; run_pruner refuses windows of one row or of 2047 rows and more.", "quantifier": "for all flags, methods, types, precisions, build configurations, settings, matrices and any reduction, BKZ run or pruner", "why_tests_cant": "Restoring a global setting shows only in what runs afterwards, the exceptional paths are not taken in tests, and the combinations of method, type, precision and build options are many.", "anchors": ["fplll/wrapper.cpp:579-734", "fplll/wrapper.cpp:754-787", "fplll/wrapper.cpp:808-1000", "fplll/bkz.cpp:849-955", "fplll/pruner/pruner.cpp:32-176", "fplll/nr/nr_FP_mpfr.inl:24-29"]}
{"id": "C83", "title": "The program latticegen", "statement": "Every documented command line (methods r, s, u, n, N, q, t, T, moduli given by b, q or p, with or without -randseed) prints a matrix of the stated dimensions, entries and determinant. No argument beyond argc is read. A matrix is printed only if a method letter, a dimension that is an int and all parameters of the method are given. The random numbers are those of the seed given, of the default seed without -randseed. False: README's statements that s gives a d x d matrix whose first entry is random of at most b2 bits, that the diagonal of t is 2^((d-i+1)^f), that the h of n is uniform (it sums up to 0 modulo q); that unknown methods, negative dimensions, negative numbers of bits, a negative k, exponents giving 0 bits, or missing input numbers are refused.", "quantifier": "for all argument lists, random streams, inputs and any mpz_set_str, atof, pow; nextprime(x) > x", "why_tests_cant": "Argument lists and random streams are unbounded, and the wrong cases are not tested.", "anchors": ["fplll/latticegen.cpp:56-266", "fplll/nr/matrix.cpp:229-498", "fplll/nr/matrix.h:284-347", "README.md:190-208"]}
{"id": "C84", "title": "The table of factorials of the pruner and its limit in double", "statement": "Each of the 2048 entries of factorial.const is i! cut after 47 digits. In double the table is finite exactly up to i = 170. svp_probability throws range_error for every pruning of 342 to 4093 coefficients, whatever they are; prune<double> returns for no dimension from 342 on, for both metrics. For half dimensions up to 170 the relative volume is the computed coefficient times a finite factorial. The constructor accepts exactly the targets in (0,1) for the probability, positive ones for expected solutions, and never both SINGLE and HALF, for finite targets. False: that dimensions up to PRUNER_MAX_N = 2047 work; that only positive targets are accepted (NaN passes both checks).", "quantifier": "for all table indices, coefficients, dimensions, radii, targets, and any pow; log and exp with the IEEE results on values that are not finite", "why_tests_cant": "The tests of the pruner stop far below dimension 342, and no test compares the 2048 constants.", "anchors": ["fplll/factorial.const:1-2050", "fplll/pruner/pruner_simplex.h:5-46", "fplll/pruner/pruner_prob.cpp:5-146", "fplll/pruner/pruner.cpp:178-216", "fplll/pruner/pruner.h:282-367"]}
{"id": "C85", "title": "apply_transform of the GSO objects applies the matrix", "statement": "On a MatGSO object whose rows are all discovered and which keeps no inverse transform, apply_transform(T, src, tgt) with both blocks inside the basis is defined: row tgt + i of b, and of u when u is kept, becomes the combination of the rows from src on with the integers read from row i of T, every other row and the number of rows stay, the integer Gram matrix is again that of b, and the object can be used again. With src = tgt and a square T that has an integer inverse the lattice stays the same. False: that the object may be used right after construction (the unit transformation makes the basis zero while u stays the identity), and that it may keep an inverse transform (the access is out of range).", "quantifier": "for all objects with the stated invariant, all transformations, blocks and floating-point operations", "why_tests_cant": "No test of fplll calls apply_transform.", "anchors": ["fplll/gso_interface.cpp:174-195", "fplll/gso.cpp:222-261", "fplll/gso_interface.h:748-788"]}
{"id": "C86", "title": "The table of volumes of the unit balls of the pruner", "statement": "Each of the 2048 entries of ballvol.const is the volume of the unit ball of its dimension, pi^k / k! or 2^n k! pi^k / n!, with a relative error of at most 10^-31. As doubles the entries have a relative error of at most 2^-52 up to dimension 435, are positive exactly up to dimension 452, and are 0 for every larger dimension.", "quantifier": "for all table indices", "why_tests_cant": "No test of fplll compares the 2048 constants; the pruner tests reach dimensions far below 435.", "anchors": ["fplll/ballvol.const:1-2050", "fplll/pruner/pruner.cpp:190-202", "fplll/nr/nr_FP_d.inl:101-105"]}
{"id": "C87", "title": "The functions that read out a GSO object", "statement": "dump_mu_d and dump_r_d for a pointer write exactly the block of mu, row by row, or the diagonal of r, and no other cell, whenever the coefficients can be read and the buffer is large enough; dump_r_d for a pointer is undefined for a shorter buffer; dump_r_d for a vector appends the diagonal. With an offset and the default block size all four leave the matrix. get_max_bstar without row exponents is the largest r(i,i) of the known rows, get_max_gram with an integer Gram matrix the largest squared norm of a known row. False: that dump_mu_d pushes entries to the end of a vector (it is passed by value and stays as it was), that get_max_bstar returns the largest r(i,i) when row exponents are used (it compares mantissas), and that get_max_gram returns the largest bstar, as its comment says.", "quantifier": "for all objects, buffers, offsets, block sizes and floating-point operations with a total order", "why_tests_cant": "No test calls these functions; a test on a well-filled buffer cannot show the missing writes elsewhere.", "anchors": ["fplll/gso_interface.h:249-257", "fplll/gso_interface.h:386-409", "fplll/gso_interface.h:791-861", "fplll/gso_interface.cpp:55-86"]}
{"id": "C88", "title": "The program llldiff from the command line to the exit code", "statement": "Every command line is a sequence of pairs -c x or -r x followed by nothing, by a lone -c or -r, by a file name, by --help or by another word starting with a minus; the help and the wrong option end the program with code 0 and 1 and the text of the source, the other forms read the file or the standard input. If the input holds two matrices of the same numbers of rows and columns, at least one of each, the program returns 0 without message when each row of the second equals the row of the first, or its opposite and the row does not start with 0, and otherwise 1 with the message INVALID RESULT. If it holds one matrix only the behaviour is undefined. False: that code 0 means that two matrices were read and found equal; a file that cannot be opened, a text that is not a matrix and a second matrix cut off after its last row give 0 as well.", "quantifier": "for all command lines, file systems and input texts", "why_tests_cant": "The program is the oracle of the test scripts; a test that compares against a missing file passes.", "anchors": ["fplll/llldiff.cpp:78-129", "fplll/nr/matrix.cpp:163-203"]}
{"id": "C89", "title": "Integers become floating-point numbers", "statement": "set_z of a large integer gives a double truncated to 53 digits (relative error below 2^-52), a long double or mpfr number nearest to it, a double-double pair whose sum has relative error below 2^-105 and is exact below 2^106; a long is exact in long double and rounded in double. get_z_exp of a double-double or quad-double returns its first double exactly. False: that the double-double pair is normalised as the library QD requires (two representations of the same integer compare as different), that a quad-double holds at least what a double-double holds (it gets 53 digits), that a double-double made from a long holds it, that get_z_exp gives back what set_z stored, and that extraction of a double-double to a long is defined whenever that of a double is (it goes through an int).", "quantifier": "for all integers below the limit of the type and all precisions", "why_tests_cant": "The types agree on small entries; the differences start at 53 digits.", "anchors": ["fplll/nr/nr_FP_misc.inl:14-182", "fplll/nr/nr_FP_misc.inl:190-197", "fplll/nr/nr_FP_misc.inl:312-351", "fplll/nr/nr_Z.inl:248-278"]}
{"id": "C90", "title": "The number of threads", "statement": "set_threads(th) returns th if it lies between 1 and the number of cores, the number of cores (at least 1) if th is larger or -1, and 1 for every other th; get_threads returns the same afterwards and only the last call counts. The pool then has one worker less; resize keeps the first workers, tells exactly the others to stop, wakes all and waits for each of them, in this order, or starts exactly the missing ones after the tasks are done; no flag of a remaining worker is set. run gives each number below the number of threads to exactly one call, the last one to the caller. False: that a positive th is granted; where the number of cores is not known (hardware_concurrency() = 0) there is always one thread.", "quantifier": "for all numbers of cores, arguments, states of the pool and sequences of calls", "why_tests_cant": "The number of cores of the testing machine is one value.", "anchors": ["fplll/threadpool.cpp:23-33", "fplll/io/thread_pool.hpp:176-179", "fplll/io/thread_pool.hpp:243-316"]}
{"id": "C91", "title": "The file written with BKZ_DUMP_GSO", "statement": "If bkz() with BKZ_DUMP_GSO gets to its end and all numbers are finite, then the file is a JSON document, whatever it held before: the array of the entries Input, one per tour carried out with its number, and Output, each with its step, loop, time and numbers; the tours are those up to the first limit or the first clean tour (one, if the block size is not below the number of rows). If bkz() ends otherwise, by an exception or because the block size is below 2, the file is no JSON document; nor if a number is infinite or not a number. Without the flag the file is untouched. The numbers are the logarithms of the squared norms. False: that a run that reports success leaves a JSON file (block size 1 leaves an open array); that a run without BKZ_VERBOSE and with a limit writes nothing on the error stream (SD-BKZ and slide reduction print a tour if the dump is asked for); README.md:278 that the numbers are log ||b_i*||.", "quantifier": "for all parameters, numbers of rows, numbers of tours, answers of the tours, numbers printed and former contents of the file", "why_tests_cant": "Tests look at bases after the reduction; none reads the file of the dump, and a file is correct or not depending on how the run ends.", "anchors": ["fplll/bkz.cpp:522-672", "fplll/bkz.cpp:713-724", "fplll/bkz.cpp:728-798", "fplll/bkz_param.h:164-167", "README.md:278"]}
{"id": "C92", "title": "Random numbers: seed, range, period", "statement": "After init_with_seed the numbers drawn depend on the seed and the calls only, not on the clock and not on what was drawn before; without any initialisation they are those of the default generator. randb and randm give numbers in the range asked for (for long: up to 63 bits). For more than 32 bits Z_NR<mpz_t>::randb seeds the generator anew from the number drawn: the state keeps only the 64 lower bits of it without bit 31, each number is determined by the one before it, and among the first 2^(min(bits,64)-1)+1 numbers there are two after which the sequence repeats for ever (2^32+1 for 33 bits), whatever the seed and the generator. False: that the numbers of randb are those of the generator of GMP (true for at most 32 bits).", "quantifier": "for all generators that keep the ranges of GMP, all states, seeds, clocks, lists of calls, numbers of bits", "why_tests_cant": "A period of 2^32 draws is not reached by a test, and a test with one seed can not tell reproducibility from chance.", "anchors": ["fplll/nr/nr_rand.inl:12-47", "fplll/nr/nr_Z_mpz.inl:201-221", "fplll/nr/nr_Z_l.inl:192-217", "fplll/nr/nr_Z_d.inl:218-225", "fplll/util.cpp:39-42"]}
{"id": "C93", "title": "The multiplier of a row operation in dd_real and qd_real", "statement": "For dd_real and qd_real the conversion to long in row_addmul_we is always defined, and the integer by which row_addmul multiplies b[j] is exactly the first double of x, with row_op_force_long and without. Over longs the same holds below 2^63; above, the conversion is defined with row_op_force_long only. The error of one operation is the rest of x, for a normalised dd_real at most 2^-53 of its first double; one operation for each double gives x exactly. False: the documented b[i] := b[i] + x * b[j] for integers x when row_op_force_long is false, both below LONG_MAX and above.", "quantifier": "for all integers x * 2^expo_add held by lists of doubles below 2^1024, both values of row_op_force_long", "why_tests_cant": "The low double is lost only for multipliers above 2^53; the reduction repeats and hides the loss, so that results stay right and a test sees more iterations at most.", "anchors": ["fplll/gso.cpp:236-262", "fplll/gso_interface.h:322-331", "fplll/nr/nr_FP_dd.inl:57-64", "fplll/nr/nr_FP_qd.inl:53-60", "fplll/nr/nr_FP_misc.inl:314-351"]}
{"id": "C94", "title": "A row of integers as floating-point numbers with one exponent", "statement": "With enable_row_expo, update_bf sets row_expo to the largest number of binary digits in the row (LONG_MIN for an empty row). However large the integers are, all numbers stored are below 1 in absolute value, and one is at least 1/2 unless the row is 0. Each number times 2^row_expo is exactly what the type keeps of the integer (mpz_t truncated to 53 digits, long rounded to 53, long double rounded to 64), as long as the integer has at most 1021 digits (16381 for long double) less than the longest one; it is 0 when it has over 1074 (16445) less. In all cases the error against what the type keeps is at most half of the smallest positive value. False: that an integer other than 0 stays other than 0. False: that dd_real keeps with row exponents what it keeps without them: only 53 digits are left, and the fast method uses dd_real with row exponents.", "quantifier": "for all rows of integers of any size, the conversions to double, dd_real, qd_real and long double from mpz_t and long", "why_tests_cant": "Loss happens with integers that differ by over a thousand bits within a row, or beyond 53 bits in dd_real, where the result is only slightly wrong and LLL may still succeed.", "anchors": ["fplll/gso.cpp:24-48", "fplll/householder.cpp:195-218", "fplll/nr/nr_Z_misc.inl:17-52", "fplll/nr/nr_Z_misc.inl:114-141", "fplll/nr/nr_Z.inl:262-271", "fplll/gso_interface.h:86-91", "fplll/wrapper.cpp:120-121", "fplll/wrapper.cpp:331"]}
