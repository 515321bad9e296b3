{
 "claims": [
  {
   "property": "C01",
   "status": "proved",
   "theorems": [
    "gso_history_preserves_lattice"
   ],
   "note": "MatGSO state machine over Z; every legal history (documented preconditions) runs without undefined behaviour and keeps the lattice, including negate_row_of_b."
  },
  {
   "property": "C02",
   "status": "proved",
   "theorems": [
    "gso_transform_tracks_basis",
    "gso_transform_negate_refuted"
   ],
   "note": "Holds for every history without negate_row_of_b; with negate_row_of_b it is false (negation is not applied to u): witness in gso_transform_negate_refuted."
  },
  {
   "property": "C03",
   "status": "proved",
   "theorems": [
    "gso_inverse_transform"
   ],
   "note": "Two-sided inverse for all histories; B0 = u_inv_t^T B without negate_row_of_b. row_swap is illegal with inverse transforms (documented)."
  },
  {
   "property": "C04",
   "status": "proved",
   "theorems": [
    "gso_int_gram_matches"
   ],
   "note": "Both with and without GSO_INT_GRAM, all histories of row operations, moves, discovery, locking."
  },
  {
   "property": "C08",
   "status": "proved",
   "theorems": [
    "rotate_is_cyclic_shift",
    "rotate_left_is_cyclic_shift",
    "rotate_right_is_cyclic_shift",
    "move_row_moves",
    "row_swap_swaps"
   ],
   "note": "Swap-based rotations equal list surgery for every valid range."
  },
  {
   "property": "C09",
   "status": "proved",
   "theorems": [
    "row_ops_full_width"
   ],
   "note": "Every row addition method equals the full-width operation in every reachable state, including locked columns."
  },
  {
   "property": "C05",
   "status": "proved",
   "theorems": [
    "gso_cache_is_reference",
    "gso_cache_transparent",
    "gso_update_makes_valid"
   ],
   "note": "For every floating-point type satisfying flaws (commutative product, adding 0*y is neutral up to the sign of zero, exponent laws), every legal history of row-operation transactions, moves, partial updates (also failing ones), set_r, lock/unlock. create_rows/remove_last_rows are not in the history (see C07)."
  },
  {
   "property": "C06",
   "status": "proved",
   "theorems": [
    "gso_exact_is_gram_schmidt"
   ],
   "note": "Floating-point type := exact rationals Qc, with and without row exponents, with and without integer Gram matrix, also for linearly dependent rows."
  },
  {
   "property": "C07",
   "status": "proved",
   "theorems": [
    "gso_created_rows_are_zero",
    "gso_remove_keeps_storage",
    "gso_create_rows_float_gram_refuted",
    "gram_create_rows_refuted"
   ],
   "note": "Positive for MatGSO's basis, transform and exact inner products from any consistent storage (whatever was removed before). Refuted as stated for (a) get_gram of MatGSO without integer Gram matrix and (b) MatGSOGram: rows re-created after a removal report non-zero inner products."
  },
  {
   "property": "C53",
   "status": "proved",
   "theorems": [
    "gram_object_congruence",
    "gram_move_row_refuted",
    "gram_leading_zero_row_hides_lattice"
   ],
   "note": "Proved for every legal history without downward moves past the known rows and without negate_row_of_b; refuted for move_row into the undiscovered range (the way lll() moves zero vectors)."
  },
  {
   "property": "C10",
   "status": "proved",
   "theorems": [
    "lll_preserves_lattice"
   ],
   "note": "LLLReduction::lll and size_reduction over MatGSO, any sequence of calls meeting their preconditions; the floating-point type is an arbitrary record of functions (no law assumed), so wrong roundings, NaN comparisons and failures at any point are included. lll_reduction's zeros_first is C34."
  },
  {
   "property": "C15",
   "status": "proved",
   "theorems": [
    "lll_always_returns"
   ],
   "note": "Arbitrary floating-point type. babai terminates because max_expo decreases by at least 5 per iteration in the range of long; the main loop is bounded by max_iter (an arbitrary function of the basis: its formula divides by log(delta)). Outcome OExpo = overflow of long when adding exponents."
  },
  {
   "property": "C17",
   "status": "proved",
   "theorems": [
    "lll_status_matches_result"
   ],
   "note": "Arbitrary floating-point type, any sequence of calls: the status is RED_SUCCESS after true and a failure code after false (update_gso_row(kappa_start) cannot fail where its failure would leave the status unchanged)."
  },
  {
   "property": "C16",
   "status": "proved",
   "theorems": [
    "lll_subrange_zeros_refuted"
   ],
   "note": "Refuted for kappa_min > 0 in exact arithmetic: the loop tests row 0 but moves row kappa_min; witnesses for both directions."
  },
  {
   "property": "C12",
   "status": "proved",
   "theorems": [
    "lll_exact_reduced"
   ],
   "note": "lll(0,0,kappa_end,0) over exact rationals with arbitrary coefficient rounding, after any legal history of the GSO object, Lovasz and Siegel, with and without early reduction, row exponents and integer Gram matrix; zero rows are covered. Sub-ranges with kappa_min > 0 are not covered (see C16)."
  },
  {
   "property": "C13",
   "status": "proved",
   "theorems": [
    "is_lll_reduced_decides",
    "is_lll_reduced_dependent_refuted"
   ],
   "note": "Decides the LLL conditions for independent rows after any legal history; refuted for dependent rows (leading zero row: later rows are never computed, the tests read the initial content of mu, here 0)."
  },
  {
   "property": "C14",
   "status": "proved",
   "theorems": [
    "accepted_first_vector"
   ],
   "note": "For every basis accepted by is_lll_reduced in exact arithmetic, also with dependent rows; 0 < delta-eta^2 <= 1."
  },
  {
   "property": "C34",
   "status": "proved",
   "theorems": [
    "zeros_first_moves",
    "zeros_first_blocks",
    "zeros_last_blocks"
   ],
   "note": "zeros_first/zeros_last exchange the block of trailing/leading zero rows with the rest, same exchange on u and u_inv_t."
  },
  {
   "property": "C11",
   "status": "proved",
   "theorems": [
    "lll_reduction_transforms",
    "lll_reduction_only_inverse_refuted"
   ],
   "note": "All methods including the wrapper, arbitrary numerical behaviour, non-empty matrix with u and u_inv both requested. If only u_inv is requested the returned matrix is wrong (refuted). Arithmetic of type long inside the wrapper is unbounded in the model."
  },
  {
   "property": "C35",
   "status": "proved",
   "theorems": [
    "wrapper_success_is_last_proved_run",
    "lll_reduction_wrapper_status",
    "lll_reduction_wrapper_reduced",
    "lll_wrapper_empty_refuted"
   ],
   "note": "Non-empty matrices, all outcomes of inner runs; bounded number of calls; with exact proved runs success implies a reduced output. For an empty matrix the constructor has undefined behaviour (refuted)."
  },
  {
   "property": "C36",
   "status": "proved",
   "theorems": [
    "hlll_wrapper_reports_failure_refuted",
    "hlll_wrapper_status_constant"
   ],
   "note": "Refuted: the returned status is RED_SUCCESS for every sequence of outcomes; the bool result is inverted. Termination is proved."
  },
  {
   "property": "C24",
   "status": "proved",
   "theorems": [
    "best_n_keeps_shortest",
    "best_n_last_is_shortest",
    "opp_n_keeps_shortest",
    "opp_n_bound_follows",
    "opp_n_keeps_recent",
    "opp_n_out_of_order_refuted"
   ],
   "note": "Any sequence of reported solutions, any ordered length type. Keeping the N most recent under the opportunistic strategy needs reports of decreasing length (refuted otherwise)."
  },
  {
   "property": "C25",
   "status": "proved",
   "theorems": [
    "first_n_store",
    "first_n_stores_more_refuted",
    "first_n_unbounded_refuted",
    "callback_reject",
    "callback_accept"
   ],
   "note": "First-N strategy: the bound becomes zero at the N-th report; the container itself keeps every further report (refuted as an at-most-N store). Callback evaluator: rejected solutions change nothing."
  },
  {
   "property": "C18",
   "status": "proved",
   "theorems": [
    "enum_shortest",
    "enum_shortest_lattice",
    "enum_best_n",
    "enum_best_terminates",
    "enum_closest",
    "enum_closest_lattice"
   ],
   "note": "Exact rational arithmetic, no pruning, no resets, any normalisation exponent, both implementations; independent basis (all r_ii > 0)."
  },
  {
   "property": "C19",
   "status": "proved",
   "theorems": [
    "enum_reports_true"
   ],
   "note": "Exact arithmetic, any target, subtree, non-negative pruning coefficients with the first at most 1, any strategy and callback, both implementations."
  },
  {
   "property": "C20",
   "status": "proved",
   "theorems": [
    "enum_complete_svp",
    "enum_complete_cvp",
    "enum_fixed_terminates"
   ],
   "note": "Exact arithmetic, evaluator that leaves the bound alone, pruning allowed, both implementations."
  },
  {
   "property": "C21",
   "status": "proved",
   "theorems": [
    "zigzag_order",
    "half_line_order",
    "descend_entered"
   ],
   "note": "Exact arithmetic; all integers for a non-zero node or a target, all non-negative integers at the all-zero node of a short-vector search."
  },
  {
   "property": "C22",
   "status": "proved",
   "theorems": [
    "recursive_equals_cache_free",
    "iterative_centre_fresh",
    "iterative_equals_cache_free",
    "centre_value"
   ],
   "note": "Any arithmetic (no algebraic laws used), both implementations, dual and primal."
  },
  {
   "property": "C23",
   "status": "proved",
   "theorems": [
    "iterative_reset_reports_true",
    "iterative_reset_closest",
    "recursive_reset_refuted",
    "recursive_reset_report_refuted"
   ],
   "note": "Proved for the iterative implementation; refuted for the recursive one (the default build): the distance of the reset level is counted twice, so a farther vector is returned."
  },
  {
   "property": "C45",
   "status": "proved",
   "theorems": [
    "max_idx_spec"
   ],
   "note": "All squared norms, any dimension."
  },
  {
   "property": "C46",
   "status": "proved",
   "theorems": [
    "cvp_radius_contains",
    "cvp_radius_lll",
    "cvp_radius_refuted"
   ],
   "note": "Holds for LLL-reduced bases with at least two rows (3(delta - eta^2) > 1); refuted for one row, where the radius is 0 and closest_vector fails."
  },
  {
   "property": "C54",
   "status": "proved",
   "theorems": [
    "babai_loop_two_passes",
    "babai_loop_terminates_refuted"
   ],
   "note": "Refuted: on the basis ((2,0,0),(1,2,0),(1,0,2)) with target (-1,1,1) the loop never ends. Without exact ties at most two passes."
  },
  {
   "property": "C55",
   "status": "proved",
   "theorems": [
    "closest_vector_correct",
    "closest_vector_lll",
    "closest_vector_fast_total"
   ],
   "note": "Exact rational arithmetic; partial correctness in general, total correctness for CVPM_FAST without exact ties. The recursive implementation with CVPM_PROVED is excluded (see C23)."
  },
  {
   "property": "C30",
   "status": "proved",
   "theorems": [
    "insert_primal",
    "insert_dual",
    "insert_single_nonprimitive_refuted"
   ],
   "note": "Coefficients with gcd 1; generic insertion needs the inverse transform disabled (debug check of row_swap). Without primitivity a single coefficient other than 1 or -1 moves a row outside the block."
  },
  {
   "property": "C31",
   "status": "proved",
   "theorems": [
    "generic_insert_total",
    "generic_pair_step"
   ],
   "note": "All coefficient vectors, primal and dual; the inserted row times the gcd is the combination."
  },
  {
   "property": "C32",
   "status": "proved",
   "theorems": [
    "insert_transform",
    "insert_transform_refuted"
   ],
   "note": "Refuted for generic insertion with a negative coefficient; proved for a unit coordinate and for non-negative coefficients."
  },
  {
   "property": "C33",
   "status": "proved",
   "theorems": [
    "rerandomize_lattice",
    "rerandomize_terminates",
    "rerandomize_two_rows_hangs",
    "rerandomize_terminates_refuted"
   ],
   "note": "Refuted for blocks of two rows (never terminates); otherwise terminates when the random stream does not stay on one residue. The lattice is preserved for every stream."
  },
  {
   "property": "C51",
   "status": "proved",
   "theorems": [
    "bkz_max_loops",
    "bkz_auto_abort",
    "bkz_clean_tour_ends",
    "bkz_success_reason",
    "bkz_auto_abort_scale_refuted",
    "bkz_auto_abort_negative_refuted"
   ],
   "note": "Auto abort needs scale <= 1 and non-negative values of -slope (both shown necessary). Tour outcomes are arbitrary; the tours themselves are not modelled here."
  },
  {
   "property": "C56",
   "status": "proved",
   "theorems": [
    "bkz_failure_status_refuted",
    "bkz_runtime_error_escapes"
   ],
   "note": "Refuted: the runtime_error thrown in a tour escapes and the status field stays RED_SUCCESS."
  },
  {
   "property": "C26",
   "status": "proved",
   "theorems": [
    "batches_all",
    "batches_end",
    "par_items_once",
    "par_leaves_once",
    "par_result_best",
    "par_complete",
    "batches_active_refuted"
   ],
   "note": "Any number of threads and any schedule. Start nodes are lists of leaves (the recursion below a start node is abstract). Same result for every schedule without pruning; with pruning no leaf admitted by the final radius is lost. The unused mode activeswirly = true loses start nodes (refuted)."
  },
  {
   "property": "C27",
   "status": "proved",
   "theorems": [
    "par_radius_nonincreasing",
    "par_own_radius",
    "par_fresh_first_batch",
    "par_item_newest",
    "par_accept_outside_refuted",
    "par_radius_opp_refuted",
    "par_first_n_refuted",
    "par_stale_radius_refuted"
   ],
   "note": "Partly refuted: monotone for strategy BestN only (OppN refuted), solutions outside the current radius reach the evaluator, FirstN keeps too many, and from the second batch on threads start with the initial radius. Proved: monotonicity for BestN, freshness within the first batch."
  },
  {
   "property": "C28",
   "status": "proved",
   "theorems": [
    "pool_wait_complete",
    "pool_at_most_once",
    "pool_wait_other_callers",
    "pool_wait_other_callers_refuted",
    "run_race_free_refuted",
    "pool_mutex",
    "pool_no_deadlock",
    "run_without_workers_refuted"
   ],
   "note": "Proved for the owner; refuted when another thread calls wait_work, for two concurrent calls and for run without workers."
  },
  {
   "property": "C29",
   "status": "proved",
   "theorems": [
    "barrier_phases",
    "barrier_spurious_refuted"
   ],
   "note": "Proved without spurious wake-ups, refuted with them (condition_variable::wait without a predicate)."
  },
  {
   "property": "C57",
   "status": "proved",
   "theorems": [
    "sub_solutions_best",
    "sub_solutions_length",
    "sub_solutions_separate"
   ],
   "note": "Any strict weak order of lengths, any sequence of reports."
  },
  {
   "property": "C58",
   "status": "proved",
   "theorems": [
    "par_signal_bounds",
    "par_signal_bounds_refuted",
    "par_race_free_refuted"
   ],
   "note": "Refuted: with 257 threads signal[256] is read, and the copy of *this races with the merge of a finished task. Proved: with at most 256 threads all signal accesses are in range."
  },
  {
   "property": "C37",
   "status": "proved",
   "theorems": [
    "hlll_ignores_eta",
    "hlll_success_eta_refuted",
    "hlll_success_eta_53_refuted"
   ],
   "note": "Refuted: compute_eR multiplies by delta, eta takes no part in a run; witnesses with correctly rounded 8-bit and 53-bit arithmetic where hlll succeeds on a basis that is not size reduced for eta."
  },
  {
   "property": "C38",
   "status": "proved",
   "theorems": [
    "hlll_preserves_lattice",
    "hlll_transform",
    "hlll_inverse_transform",
    "hlll_one_row_refuted",
    "hlll_more_rows_than_columns_refuted"
   ],
   "note": "Proved for every floating-point behaviour when 2 <= rows <= columns; refuted for one row (access to row 1) and for more rows than columns."
  },
  {
   "property": "C39",
   "status": "proved",
   "theorems": [
    "read_accepts_exactly_the_grammar",
    "ill_formed_text_fails_consistently",
    "failed_read_consistent_refuted",
    "integer_at_end_of_stream_refuted",
    "printed_integer_reads_back",
    "print_then_read",
    "print_then_read_empty_refuted",
    "print_comma_needs_an_entry",
    "print_comma_read_refuted"
   ],
   "note": "Round trip proved for both print modes, all limits and stale storage; the reader accepts exactly an independent grammar. Refuted: 0 x c matrices (c > 0) come back 0 x 0; a read that fails before '[' leaves the old dimensions with no rows; an integer ending the stream is refused; print_comma output is not readable."
  },
  {
   "property": "C40",
   "status": "proved",
   "theorems": [
    "matrix_history_keeps_contents",
    "resize_new_entries_default_refuted",
    "row_sizes_kept_without_transpose",
    "transpose_row_sizes_refuted"
   ],
   "note": "Kept entries and transposition proved for all histories over any element type. Refuted: newly exposed entries can be stale, and rows taken over by transpose can be longer than get_cols()."
  },
  {
   "property": "C41",
   "status": "proved",
   "theorems": [
    "convert_exact",
    "convert_true_fits",
    "convert_accepts_all_that_fit_refuted",
    "convert_back_loses_entries_refuted",
    "convert_buffer_range_refuted",
    "convert_long_min_refuted"
   ],
   "note": "True exactly when all |x| <= 2^(62-buffer), then exact. Refuted: values that fit into 63-buffer bits are refused for every buffer < 62, so converting back can lose entries."
  },
  {
   "property": "C42",
   "status": "proved",
   "theorems": [
    "gen_intrel_shape",
    "gen_simdioph_shape",
    "gen_uniform_shape",
    "gen_ntrulike_shape",
    "gen_ntrulike2_shape",
    "gen_qary_shape",
    "gen_trg_shape",
    "gen_trg2_shape",
    "gen_q_range",
    "gen_identity_shape",
    "gen_simdioph_old_contents_refuted",
    "gen_empty_refuted",
    "gen_qary_negative_k_refuted",
    "gen_trg_zero_bits_refuted",
    "gen_uniform_full_rank_refuted"
   ],
   "note": "Shapes, ranges and determinants proved for all random streams and old contents. Refuted: gen_simdioph keeps old entries in column 0; the empty matrix, negative k and zero bits are not refused; gen_uniform guarantees no rank."
  },
  {
   "property": "C43",
   "status": "proved",
   "theorems": [
    "get_si_exp_we_faithful",
    "rnd_we_nearest",
    "get_si_exp_we_narrowing_refuted",
    "rnd_we_overflow_refuted"
   ],
   "note": "All finite IEEE doubles and all expo_add from -2^31 to 2^62. Refuted: below -2^31 the exponent is narrowed to int; rnd_we may overflow to infinity although the rounded scaled value is small."
  },
  {
   "property": "C44",
   "status": "proved",
   "theorems": [
    "dpe_cmp_order",
    "dpe_mul_rounded",
    "dpe_div_rounded",
    "dpe_sqrt_rounded",
    "dpe_add_error",
    "dpe_sub_error",
    "dpe_set_d_exact",
    "dpe_set_z_truncated",
    "dpe_round_nearest",
    "dpe_get_si_exp_faithful",
    "dpe_get_z_exp_faithful",
    "dpe_scale_tab_exact",
    "dpe_add_rounded_refuted",
    "dpe_set_d_subnormal_refuted",
    "dpe_zero_overflow_refuted",
    "dpe_sqrt_zero_refuted",
    "dpe_set_z_zero_refuted",
    "dpe_hypot_zero_refuted"
   ],
   "note": "Order for all normalised numbers; arithmetic for exponents up to about 2^30 in absolute value. Products and quotients need non-zero operands: with a zero operand the int exponent overflows (refuted)."
  },
  {
   "property": "C47",
   "status": "proved",
   "theorems": [
    "shortest_vectors_fast_outputs",
    "shortest_vectors_proved_outputs",
    "shortest_vectors_exact_fast",
    "shortest_vectors_one_unchanged",
    "shortest_vectors_zero_aborts",
    "shortest_vector_aux_outputs",
    "shortest_vectors_one_refuted",
    "shortest_vectors_few_refuted",
    "shortest_vectors_proved_fewer_refuted",
    "shortest_vector_aux_refuted"
   ],
   "note": "Refuted at max_sols = 1: success with untouched outputs. Proved for 2 <= max_sols < 2^31: success iff at least one vector is output, sorted, the shortest of the reports. Also refuted: max_sols vectors need not be returned although the lattice has them, SVPM_PROVED drops reports, auxiliary solutions with nothing found increment end()."
  },
  {
   "property": "C59",
   "status": "proved",
   "theorems": [
    "shortest_vector_exact_correct",
    "shortest_vector_exact_terminates",
    "last_useful_index_approx",
    "svp_dual_proved_fails",
    "svp_dual_proved_refuted"
   ],
   "note": "Exact arithmetic, any function giving the enlarged bound; both methods, both enumeration loops. last_useful_index is safe for diagonal entries with relative error up to one third. Refuted for the dual lattice with SVPM_PROVED: never succeeds."
  },
  {
   "property": "C50",
   "status": "proved",
   "theorems": [
    "llldiff_exact",
    "llldiff_sound",
    "llldiff_complete",
    "llldiff_zero_column_refuted",
    "llldiff_larger_refuted",
    "llldiff_shape_refuted"
   ],
   "note": "Refuted: a row starting with 0 and its opposite are reported different; larger second matrices count as equal, smaller ones are read out of bounds. Proved: exact characterisation for equal shapes, hence soundness, and completeness when the first column has no 0."
  },
  {
   "property": "C52",
   "status": "proved",
   "theorems": [
    "svpcvp_coords_abort",
    "svpcvp_coords_refuted",
    "svpcvp_no_lll_outputs",
    "svpcvp_solution"
   ],
   "note": "Refuted: with LLL (the default) the transformation matrix is empty and the product with it aborts for every basis. Proved: with no_lll the coordinates are printed; the default output is the found vector, in the input lattice and shortest if the search was right."
  },
  {
   "property": "C48",
   "status": "proved",
   "theorems": [
    "enforce_entries",
    "enforce_valid",
    "enforce_last",
    "enforce_fixed",
    "half_round_trip",
    "full_round_trip",
    "full_round_trip_one",
    "saved_is_pruning_vector",
    "greedy_valid",
    "greedy_terminates",
    "greedy_then_enforce",
    "full_round_trip_refuted",
    "enforce_position_min_refuted",
    "enforce_last_refuted",
    "enforce_odd_last_refuted",
    "enforce_empty_refuted",
    "save_empty_refuted",
    "goal_parabola_zero",
    "goal_parabola_refuted"
   ],
   "note": "Half vectors survive exactly for every dimension >= 1. Full vectors come back with the last entry replaced by one: refuted for vectors enforce accepts (last entry .9995). enforce without position: valid for all inputs; with a position the minimal coefficients must be non-decreasing (refuted otherwise), which greedy guarantees. Last coefficient not forced for d = 1; dimension 0 and 1 give out-of-bounds accesses. The parabola of the greedy goal is an integer division that is always 0."
  },
  {
   "property": "C49",
   "status": "proved",
   "theorems": [
    "relative_volume_is",
    "relative_volume_probability",
    "relative_volume_ones",
    "relative_volume_monotone",
    "relative_volume_monotone_refuted",
    "relative_volume_decreasing_refuted"
   ],
   "note": "Exact reals; the specification is an iterated integral (Coquelicot). Monotone when the last bound is kept; refuted when it is relaxed too, because bounds are taken relative to it. Negative for profiles that are not non-decreasing."
  },
  {
   "property": "C60",
   "status": "proved",
   "theorems": [
    "svp_probability_evec_range",
    "svp_probability_evec_ones",
    "svp_probability_evec_monotone",
    "svp_probability_range",
    "svp_probability_bracket",
    "svp_probability_lower_refuted",
    "svp_probability_dim1_refuted"
   ],
   "note": "Exact reals, any shell ratio in (0,1). Range for half and full vectors, one without pruning, monotone when the last bound is one. Refuted: the 'lower' value can exceed the 'upper' one when b[2d-2] < 1; dimension 1 throws."
  },
  {
   "property": "C61",
   "status": "proved",
   "theorems": [
    "enum_cost_levels",
    "enum_cost_estimate",
    "enum_cost_range",
    "enum_cost_even_monotone",
    "enum_cost_full",
    "public_single_enum_cost_is_lower",
    "enum_cost_monotone_refuted",
    "enum_cost_bracket_refuted"
   ],
   "note": "Exact reals. Refuted: the interpolated levels of odd dimension, and with them the total, can decrease when a bound is relaxed, the 'upper' estimate can be below the 'lower' one, the sum of detailed_cost (upper half) then differs from the returned mean, and single_enum_cost of external coefficients is the lower estimate. Proved: values of all levels, positivity, bound by the unpruned cost, monotonicity of the levels of even dimension."
  },
  {
   "property": "C62",
   "status": "proved",
   "theorems": [
    "load_basis_shape_exact",
    "load_basis_shapes_average",
    "gaussian_heuristic_volume",
    "expected_solutions_last_level",
    "expected_solutions_monotone",
    "expected_solutions_bracket",
    "target_function_trials",
    "target_function_certain",
    "target_function_solutions",
    "target_function_at_least_one",
    "repeated_enum_cost_target_refuted",
    "load_basis_shape_odd_refuted"
   ],
   "note": "Exact reals, positive shapes. Refuted: repeated_enum_cost ignores the target with the metric of expected solutions; in odd dimension the last inverse partial volume is not computed."
  },
  {
   "property": "C63",
   "status": "proved",
   "theorems": [
    "hlll_success_reduced",
    "hlll_success_reduced_independent",
    "r_factor_unique",
    "r_factor_positive"
   ],
   "note": "Exact reals in the place of FT; success implies reduced with (delta, delta, theta): eta is not used by the code (C37)."
  },
  {
   "property": "C64",
   "status": "proved",
   "theorems": [
    "is_hlll_reduced_exact",
    "is_hlll_reduced_exact_independent",
    "is_hlll_reduced_after_hlll",
    "is_hlll_reduced_row_expo",
    "is_hlll_reduced_row_expo_same_bits",
    "is_hlll_reduced_row_expo_accepts_refuted",
    "is_hlll_reduced_row_expo_rejects_refuted"
   ],
   "note": "Exact reals: right without row exponents. Refuted with row exponents: R(i,i-1)^2 is not rescaled, so non-reduced bases are accepted and reduced ones rejected (53-bit mpfr witnesses)."
  },
  {
   "property": "C65",
   "status": "proved",
   "theorems": [
    "get_pruning_nearest",
    "get_pruning_nearest_real",
    "get_pruning_defined",
    "get_pruning_far_refuted",
    "load_strategies_table",
    "load_strategies_pruning",
    "param_table_spec",
    "linear_pruning_spec",
    "linear_pruning_valid",
    "linear_pruning_zero_refuted"
   ],
   "note": "Binary64. Refuted outside the stated ranges: no factor within 2^80 (first entry is returned), LinearPruningParams(0, level) writes out of bounds."
  },
  {
   "property": "C66",
   "status": "proved",
   "theorems": [
    "svp_reduction_inside",
    "bkz_run_inside",
    "bkz_tour_ends",
    "hkz_run_ends",
    "default_table_ok",
    "loaded_table_ok",
    "tour_blocks",
    "sd_tour_blocks",
    "svp_success_probability",
    "short_table_refuted",
    "preprocessing_endless_refuted",
    "preprocessing_outside_refuted",
    "zero_basis_refuted",
    "sd_large_block_refuted",
    "short_pruning_refuted",
    "three_rows_refuted",
    "small_expectation_refuted"
   ],
   "note": "Arbitrary basis behaviour (oracle). Termination of slide tours and of the main loop is not claimed. Refuted without the conditions on table, rows and probabilities."
  },
  {
   "property": "C67",
   "status": "proved",
   "theorems": [
    "slope_least_squares",
    "slope_geometric",
    "slope_scaled",
    "slope_dual",
    "slope_one_row_refuted",
    "log_det_volume",
    "root_det_mean",
    "root_det_empty_refuted",
    "slide_potential_prefixes",
    "slide_potential_start_refuted",
    "gh_is_gaussian_heuristic",
    "adjust_radius_min",
    "pruning_quotient",
    "enum_radius_primal",
    "enum_radius_dual",
    "pruning_quotient_short_refuted",
    "pruning_for_other_radius_refuted",
    "dual_radius_bound_refuted"
   ],
   "note": "Exact reals. Refuted: dual blocks are capped by the Gaussian heuristic of the primal block; the quotient for the lookup of pruning parameters is max(1, r/GH^2) and ignores the cap of the radius; get_slide_potential ignores start_row; one row has no slope."
  },
  {
   "property": "C68",
   "status": "proved",
   "theorems": [
    "enforce_proper",
    "enforce_proper_same",
    "min_max_smallest",
    "gradient_descent_step_cost",
    "gradient_descent_terminates",
    "nelder_mead_step_cost",
    "nelder_mead_terminates",
    "worst_vertex_refuted",
    "core_terminates",
    "core_half_cost",
    "decr_single_terminates",
    "incr_prob_terminates",
    "smooth_falling",
    "vary_prob_terminates",
    "stuck_up",
    "stuck_down",
    "change_prob_terminates",
    "local_adjust_prob_result",
    "greedy_profile_terminates",
    "preparation_terminates",
    "optimize_terminates",
    "target_function_floor",
    "single_enum_cost_details",
    "pruner_optimize_terminates",
    "local_adjust_prob_terminates_refuted",
    "minimal_coefficients_reach_target_refuted",
    "smooth_above_minima_refuted"
   ],
   "note": "Exact reals. Refuted: termination of local_adjust_prob; that minimal coefficients allow the target with PRUNER_SINGLE; that smoothing keeps the minimal coefficients; that maxi is the worst vertex."
  },
  {
   "property": "C69",
   "status": "proved",
   "theorems": [
    "odd_profile_unchanged",
    "even_profile_good",
    "incr_prob_reaches_target_refuted",
    "decr_prob_reaches_target_refuted"
   ],
   "note": "FT = double. Refuted in odd dimensions: the profile is returned as it was, whatever the target."
  },
  {
   "property": "C70",
   "status": "proved",
   "theorems": [
    "lll_exact_total",
    "lll_exact_within_limit",
    "lll_exact_within_computed_limit",
    "iter_limit_computed",
    "iter_limit_overflow_refuted",
    "iter_limit_int_refuted",
    "iter_limit_delta_one_refuted",
    "lll_no_iterations_refuted"
   ],
   "note": "Exact arithmetic and exact rounding, independent rows, kappa_min = 0. The limit itself is undefined behaviour for delta = 1, delta just below 1 and 32768 rows (refuted)."
  },
  {
   "property": "C71",
   "status": "proved",
   "theorems": [
    "hkz_exact_reduced",
    "bkz_exact_total",
    "clean_tour_reduced",
    "bkz_success_reduced_refuted",
    "bkz_last_row_refuted"
   ],
   "note": "Exact arithmetic, empty strategies, primal tours. Two expectations are refuted: success without prior LLL does not mean BKZ-reduced; the last row need not be size-reduced."
  },
  {
   "property": "C72",
   "status": "proved",
   "theorems": [
    "top_once",
    "top_once_real",
    "top_cover",
    "top_inside",
    "top_terminates",
    "top_terminates_real",
    "split_enumerate",
    "split_enumerate_total",
    "sphere_volume_ball",
    "top_tie_refuted",
    "split_dim1_refuted"
   ],
   "note": "Exact arithmetic. Refuted: exactly once when the estimate equals max_volume; dimension 1."
  },
  {
   "property": "C73",
   "status": "proved",
   "theorems": [
    "long_value",
    "long_exact",
    "mpz_exact",
    "mod_agree",
    "mpz_exponent_ok",
    "long_exponent_ok",
    "dbl_exponent_ok",
    "long_set_str_ok",
    "long_set_str_prefix",
    "mpz_set_str_ok",
    "dbl_exact",
    "long_nextprime_ok",
    "long_randb_range",
    "mpz_randb_later",
    "long_addmul_refuted",
    "long_shift_refuted",
    "mpz_addmul_refuted",
    "mod_refuted",
    "long_exponent_refuted",
    "long_set_str_refuted",
    "dbl_set_str_refuted",
    "dbl_arith_refuted",
    "long_nextprime_refuted",
    "mpz_randb_refuted"
   ],
   "note": "Refuted expectations are listed in the statement."
  },
  {
   "property": "C74",
   "status": "proved",
   "theorems": [
    "from_canonical_ok",
    "to_canonical_coords",
    "to_canonical_gs",
    "from_to_canonical",
    "to_from_canonical",
    "babai_gs_ok",
    "babai_can_ok",
    "babai_can_gso",
    "babai_can_recovers",
    "babai_can_distance",
    "to_canonical_start_refuted",
    "babai_short_refuted"
   ],
   "note": "Exact arithmetic. Refuted: to_canonical with start > 0; short vectors."
  },
  {
   "property": "C75",
   "status": "proved",
   "theorems": [
    "max_error_aux_ok",
    "svp_radius_ok",
    "int_dist2Float_ok",
    "get_max_error_ok",
    "init_dr_ok",
    "init_dm_ok",
    "mpfr53_up",
    "mpfr53_down",
    "mpfr53_near",
    "flx_dbl",
    "get_max_error_negative_refuted",
    "init_dr_nonneg_refuted",
    "init_dm_row_refuted"
   ],
   "note": "Up to the factor (1-eps)^(2d+1) of the operations rounded to nearest; no underflow. Refuted: negative max_error, negative bound on r, row or column in the bound on mu."
  },
  {
   "property": "C76",
   "status": "proved",
   "theorems": [
    "set_config_ok",
    "set_config_small",
    "ext_same_data",
    "ext_dual_bound_zero",
    "run_ext_inv",
    "run_ext_heeds",
    "norm_exp_largest",
    "sol_coords_ok",
    "sub_coords_ok",
    "lib_dim_ok",
    "enumlib_runs",
    "enumlib_fallback",
    "enum_pruning_abort",
    "report_subs_ok",
    "get_nodes_ok",
    "ext_fmaxdist_kept",
    "lib_max_refuted",
    "ext_fmaxdist_refuted",
    "ext_dual_bound_refuted",
    "ext_dual_normexp_refuted",
    "get_nodes_refuted"
   ],
   "note": "Refuted: the maximal dimension, the returned bound, the dual case, node counts from 2^31 on."
  },
  {
   "property": "C77",
   "status": "proved",
   "theorems": [
    "rho_ok",
    "gso_min_prec_ok",
    "l2_min_prec_ok",
    "gso_prec_error",
    "gso_min_prec_least",
    "l2_min_prec_total",
    "up53",
    "dn53",
    "eta_half_exact",
    "h_alpha_root",
    "hlll_min_prec_ok",
    "l2_delta_one_refuted",
    "l2_eta_half_refuted",
    "l2_empty_refuted",
    "hlll_checks_refuted"
   ],
   "note": "hlll_min_prec in exact arithmetic. Refuted: definedness at delta = 1, eta = 1/2, no rows; checks of hlll_min_prec."
  },
  {
   "property": "C78",
   "status": "proved",
   "theorems": [
    "dual_enum_shortest",
    "dual_svp_reduced",
    "dual_svp_total",
    "sd_bkz_total",
    "clean_sd_tour_reduced",
    "sd_loop_success_reduced",
    "sd_success_output_refuted"
   ],
   "note": "Exact arithmetic, empty strategies. Refuted: the output of SD-BKZ is dual-reduced."
  },
  {
   "property": "C79",
   "status": "proved",
   "theorems": [
    "slide_success_reduced",
    "slide_loop_terminates",
    "slide_bkz_total",
    "slide_output_size_reduced_refuted"
   ],
   "note": "Exact arithmetic, empty strategies. Refuted: the output of slide reduction is size-reduced."
  },
  {
   "property": "C80",
   "status": "proved",
   "theorems": [
    "hlll_exact_total",
    "hlll_small_delta_refuted"
   ],
   "note": "Exact real arithmetic. Refuted for delta < 1/2: the size-reduction test uses delta in the place of eta and refuses a reduced basis."
  },
  {
   "property": "C81",
   "status": "proved",
   "theorems": [
    "cmd_meaning",
    "cmd_only",
    "cmd_safe",
    "call_has_settings",
    "output_has_format",
    "when_it_runs",
    "text_int_right",
    "text_int_none",
    "format_items",
    "format_read",
    "printed_is_computed",
    "pruner_defined",
    "nolll_bkz",
    "option_r_sets_c",
    "option_r_refuted",
    "nolll_hkz_refuted",
    "last_action_refuted",
    "cvp_empty_target_refuted"
   ],
   "note": "Four statements of the help text are refuted. An uninitialised field is a distinct value, reading it is undefined behaviour."
  },
  {
   "property": "C82",
   "status": "proved",
   "theorems": [
    "lll_entry_right",
    "hlll_entry_right",
    "entry_refuses",
    "hlll_verify_right",
    "hlll_wrapper_entry_right",
    "hlll_wrapper_entry_empty",
    "bkz_entry_right",
    "bkz_block_form_right",
    "bkz_entry_transform",
    "bkz_stops_on_lll_failure",
    "prune_window_right",
    "run_pruner_right",
    "bkz_precision_lost_refuted",
    "bkz_dd_control_word_refuted",
    "negative_precision_refuted",
    "run_pruner_precision_lost_refuted",
    "prune_window_one_row_refuted",
    "prune_window_table_refuted"
   ],
   "note": "Six plausible statements are refuted (exceptions, dd in BKZ, negative precision, two pruner windows)."
  },
  {
   "property": "C83",
   "status": "proved",
   "theorems": [
    "latticegen_documented",
    "latticegen_no_overread",
    "latticegen_prints_only",
    "latticegen_seed",
    "readme_s_refuted",
    "readme_t_refuted",
    "readme_n_uniform_refuted",
    "method_word_refuted",
    "negative_dimension_refuted",
    "bad_parameters_refuted",
    "missing_input_refuted"
   ],
   "note": "Three statements of README.md and five plausible refusals are refuted."
  },
  {
   "property": "C84",
   "status": "proved",
   "theorems": [
    "factorial_table_right",
    "factorial_double",
    "svp_probability_throws",
    "metric_never_returns",
    "prune_never_returns",
    "small_dimension_defined",
    "max_dimension_refuted",
    "constructor_accepts",
    "nan_target_refuted"
   ],
   "note": "Two plausible statements are refuted: the dimension limit 2047 and the refusal of NaN targets."
  },
  {
   "property": "C85",
   "status": "proved",
   "theorems": [
    "transform_applied",
    "transform_keeps_lattice",
    "goodb_ok",
    "transform_undiscovered_refuted",
    "transform_inverse_refuted"
   ],
   "note": "Two plausible statements are refuted: use before discover_row, and use with an inverse transform."
  },
  {
   "property": "C86",
   "status": "proved",
   "theorems": [
    "ball_table_right",
    "ball_double",
    "pi_bounds",
    "ball_step"
   ],
   "note": "The table as written and its conversion to doubles."
  },
  {
   "property": "C87",
   "status": "proved",
   "theorems": [
    "dump_mu_right",
    "dump_r_right",
    "default_block_out_of_range",
    "max_bstar_right",
    "max_gram_right",
    "dump_mu_vector_refuted",
    "max_bstar_expo_refuted",
    "max_gram_bstar_refuted"
   ],
   "note": "Three statements of the comments in gso_interface.h are refuted."
  },
  {
   "property": "C88",
   "status": "proved",
   "theorems": [
    "args_total",
    "help_and_wrong_options",
    "llldiff_program_right",
    "llldiff_program_ends",
    "llldiff_one_matrix_undefined",
    "llldiff_program_success_refuted"
   ],
   "note": "That exit code 0 implies a comparison is refuted."
  },
  {
   "property": "C89",
   "status": "proved",
   "theorems": [
    "set_z_truncates_or_rounds",
    "dd_set_z_right",
    "dd_get_z_exp_right",
    "qd_set_z_is_double",
    "dd_set_z_normal_refuted",
    "qd_set_z_refuted",
    "dd_of_long_refuted",
    "dd_round_trip_refuted",
    "dd_get_long_refuted"
   ],
   "note": "Five plausible statements about dd_real and qd_real are refuted."
  },
  {
   "property": "C90",
   "status": "proved",
   "theorems": [
    "set_threads_right",
    "set_threads_last",
    "resize_right",
    "run_right",
    "set_threads_cores_refuted"
   ],
   "note": "That a positive number of threads is granted is refuted."
  },
  {
   "property": "C91",
   "status": "proved",
   "theorems": [
    "dump_is_json",
    "dump_unfinished_not_json",
    "dump_infinite_not_json",
    "no_dump_no_file",
    "quiet_right",
    "dumped_right",
    "dump_success_json_refuted",
    "quiet_refuted",
    "dumped_norm_refuted"
   ],
   "note": "That success means a JSON file, that the run is quiet without BKZ_VERBOSE, and that the numbers are the logarithms of the norms are refuted."
  },
  {
   "property": "C92",
   "status": "proved",
   "theorems": [
    "seed_reproducible",
    "default_reproducible",
    "random_range",
    "randb_forgets",
    "randb_period",
    "randb_next",
    "randb_small_is_gmp",
    "randb_is_gmp_refuted"
   ],
   "note": "That randb gives the numbers of GMP's generator is refuted."
  },
  {
   "property": "C93",
   "status": "proved",
   "theorems": [
    "multiplier_is_first",
    "multiplier_long_is_first",
    "multiplier_error",
    "passes_exact",
    "row_addmul_exact_refuted"
   ],
   "note": "That row_addmul without row_op_force_long adds x * b[j] is refuted."
  },
  {
   "property": "C94",
   "status": "proved",
   "theorems": [
    "row_expo_is_max",
    "row_exact",
    "row_error",
    "row_below_one",
    "row_has_half",
    "row_nonzero_refuted",
    "row_dd_refuted"
   ],
   "note": "That a coefficient other than 0 stays so, and that dd_real keeps its precision with row exponents, are refuted."
  }
 ]
}
