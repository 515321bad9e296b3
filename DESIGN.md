# Verification design for fplll (Coq 8.16.1)

## Method

The C++ sources under `/repo/fplll` are read as text and transcribed by hand,
function by function, into total Gallina functions (`theories/*Model.v`).  Each
definition carries a comment with the file and line range it transcribes and the
simplifications made.  Specifications are separate definitions
(`theories/*Spec.v`, or a "Specification" part at the top of a properties file)
that do not mention the model's helper functions.  `theories/Prop*.v` hold the
final theorems, one group per property, each accompanied by a concrete
non-trivial `Example` that meets the hypotheses, and `Print Assumptions`.

General modelling conventions

* Integers of type `Z_NR<mpz_t>` are `Z`.  `Z_NR<long>`/`Z_NR<double>` overflow
  is *not* modelled in the matrix layer (it is where it is the subject, e.g.
  `convert`, `exponent`).
* `std::vector<T>` / `NumVect<T>` is `list T`; a `Matrix<T>` is a list of rows.
  Out-of-range access (undefined behaviour in C++) is a distinct outcome: a
  function returns `None` (or the constructor `UB`) instead of a default value.
* Loops whose termination is not structural take explicit fuel; running out of
  fuel is a distinct outcome.  Theorems either hold for every fuel, or prove
  that enough fuel exists.
* Floating point: three levels.
  (a) *arbitrary*: every floating-point value and every comparison is answered
  by an oracle, theorems quantify over all oracles (covers every precision,
  rounding mode, NaN, and overflow);
  (b) *exact*: the floating-point type is instantiated with the rationals `Q` or the reals `R`
  (the mathematical statement the algorithm is meant to satisfy);
  (c) *bit level*: where the representation is the subject (double and dpe
  conversions) doubles are Flocq's IEEE 754 binary64 data, mpfr numbers pairs of
  integers.
* Concurrency: small-step transition systems; theorems quantify over all
  reachable states, i.e. over all schedules.
* Random numbers are an arbitrary stream given as argument.

## Trusted base

* Coq 8.16.1's kernel (and `coqchk`).
* The axioms listed by `Print Assumptions` for each theorem (printed during the
  build).  Unless a line in the table below says otherwise the answer is
  "Closed under the global context".  Where Coq's `Reals` are used, the stdlib
  axioms `ClassicalDedekindReals.sig_forall_dec`,
  `ClassicalDedekindReals.sig_not_dec`, `FunctionalExtensionality.
  functional_extensionality_dep` (and `Classical_Prop.classic` where noted)
  appear.
* The hand transcription from C++ to Gallina, guided by the line citations.
* Not modelled: GMP/MPFR internals, C++ memory management, I/O
  buffering, logging, CLI parsing except where a property says so, compile-time
  instantiation of templates, machine overflow of `int` indices.

## Properties: what is modelled and how it is proved

See the table at the end of this file for the state of each property (it is kept
in step with `MANIFEST.json`).

| id | model | proof idea |
|----|-------|------------|
| C01 | GSO object state machine (`GsoModel.v`) over `Z` matrices; operations from gso.cpp | each row operation is unimodular; induction over the history |
| C02 | same, with the field `u` | invariant `B = U*B0` |
| C03 | same, with `u_inv_t` | invariant `U * u_inv_t^T = I` and `B0 = u_inv_t^T * B` |
| C04 | same, with lower-triangular `g`, `rotate_gram_left/right` transcribed swap by swap | invariant `g(i,j) = <b_i,b_j>` for known rows |
| C05 | same, with `gso_valid_cols`, `mu`, `r` and abstract FT operations | invariant: valid prefix of each row equals the defining recursion evaluated on the current Gram matrix |
| C06 | FT := Q | recursion = Gram-Schmidt, by strong induction |
| C07 | `size_increased`, `create_rows`, `remove_last_rows` of MatGSO (`GsoRowsModel.v`) and MatGSOGram (`GramModel.v`) | positive theorem for MatGSO's b, u and exact inner products from any consistent storage; refutation by witness history for the floating-point Gram view and for MatGSOGram |
| C08 | `rotate_*_by_swap`, `reverse_by_swap` | index-wise characterisation |
| C09 | `n_known_cols`, `init_row_size`, lock/unlock | invariant on zero tails |
| C10 | `LLLReduction` (`LllModel.v`) over MatGSO with an arbitrary record of FT operations (`lops`) | every reachable state is obtained by unimodular operations (`Steps`, `GsoWeak.v`, `LllProofs.v`) |
| C11 | `lll_reduction` driver, `lll_reduction_z`, `Wrapper`, `zeros_first`, `transpose` (`WrapperModel.v`); the numerical environment of every run is arbitrary | predicate `track` (b = u b0, u_inv_t transposed inverse) is preserved by every run, rotation and transposition; refuted when only u_inv is requested |
| C12 | `lll` over exact rationals (`lq_ops`: rounding functions arbitrary), spec `LllSpec.v` (Gram-Schmidt by its characteristic equations) | loop invariant LI of `LllExact.v` (rows before kappa reduced, caches equal the exact values); `PropLllExact.v` |
| C13 | `is_lll_reduced` (`LllDecide.v`) | update_gso succeeds for independent rows, tests = definition; refuted for dependent rows |
| C14 | `is_lll_reduced` + spec | accepted bases are independent or have b_0 = 0; chain of norms, Cauchy-Schwarz against the last orthogonal vector |
| C15 | same loop | `max_iter` is structural; babai: exponent decreases by 5 per iteration inside the range of long |
| C16 | leading-zero loop | refutation for kappa_min > 0 by two witnesses in exact arithmetic |
| C17 | status field | holds: `update_gso_row(kappa_start)` succeeds after babai (all divisors already checked) |
| C18 | enumerate.cpp:23-269, enumerate_base.cpp:24-247, enumerate_base.h:145-172 (EnumModel), evaluator of EvalModel, exact rationals | refinement to a cache-free tree search (EnumRefine for the recursive, EnumIter for the iterative code), tree search = filter of all coefficient vectors (EnumTree), normalisation undone (EnumNorm, EnumCall); statement over lattice vectors and Euclidean norm in PropEnum |
| C19 | same | `enum_reports_true`: every report of every run, including the bound in force as a function of the earlier reports |
| C20 | same, with an evaluator that leaves the bound alone | count of x plus count of -x is 1 inside, 0 outside; termination from r_ii > 0 |
| C21 | `step_x` = enumerate_base.h:145-172 / enumerate_base.cpp:86-99 | closed form of the n-th candidate, order and exhaustiveness |
| C22 | `center_partsums`, both loops | simulation with a version that recomputes every centre, in any arithmetic; iterative run ends iff the cache-free one does |
| C23 | Enumeration with resets (`EnumReset.v`: `reset_sub` nests runs of the enumeration model, `cvp_run` the outer call) | iterative: induction over the search tree with the invariant that the bound is the minimum over the explored part, the sub-enumeration being exact because Babai's point is inside its radius (`EnumResetProofs.v`); recursive: refuted by an LLL-reduced 3-row basis |
| C24,C25 | evaluator.h:125-203, 243-256 as functions on a sorted list (EvalModel); any strict weak order of lengths | proved by invariants over lists of reports (EvalProofs, PropEval); three over-strong readings refuted |
| C26 | enumeration.h:412-505 and 130-138, 280-300 (`ParEnumModel.v`): how start nodes are put into batches (`batches`), and one transition per shared access of a thread (`tstep`, `ystep`), strategies of EvalModel | reachable-state invariants on counts (`ParEnumProofs.v`): each index in exactly one of not fetched / in hand / finished, each leaf in exactly one of to do / reported / pruned; result equals the N shortest leaves. The recursion below a start node is abstract (a list of leaves, each with the bound it needs); sequentially consistent atomics |
| C27 | same | evaluator state is a function of the log (`Inv2`); which thread may be stale (`ParEnumFresh.v`: signal set, loading, or somebody is publishing); explicit schedules refute the rest |
| C28 | thread_pool.hpp: workers, owner and other callers as a transition system with mutex and condition variable (`PoolModel.v`) | reachable-state invariants (`PropPool.v`); explicit schedules for the refutations |
| C29 | thread_pool.hpp barrier, with and without spurious wake-ups (`PoolModel.v`) | invariant on phases; explicit schedule with one spurious wake-up |
| C30 | svp_postprocessing as the list of calls on the GSO object (`svp_post` in `BkzModel.v`), run on the C01-C04 object | column dynamics `act` of each call; single, unit and generic case; a non-primitive single coefficient is refuted (row before the block moved). Coefficients are exact integers; the conversion from FT is not modelled |
| C31 | tree gcd (`gpair`, `gbody`, `glevel`, `gtree`) | measure 2(a+b)+[a>b] for one pair; zero pattern off divides d-1-i for a level; segment invariant composed |
| C32 | C30 with transform | history_product for unit and non-negative generic insertion; refuted for a negative coefficient (negate_row_of_b does not touch u) |
| C33 | rerandomize_block with an arbitrary random stream (`rerandomize`) | operations stay in the block without its last row; terminates when the stream varies; refuted for two rows (infinite loop) |
| C34 | `zeros_first`, `zeros_last` (`WrapperModel.v`) | block exchange A ++ Zs -> Zs ++ A via the rotation lemma of C08 |
| C35 | class Wrapper: `call_lll`, precision loops, `last_lll`, long copies (`WrapperModel.v`); Z = long arithmetic is unbounded, `little` and l2_min_prec are parameters | the calls form a chain of genuine runs of the LLL model; the precision doubles; end-to-end corollary: exact proved runs give a reduced output |
| C36 | HLLL part of Wrapper over oracle outcomes | refuted: the status member is never assigned (local variable shadows it); termination proved |
| C37 | MatHouseholder and HLLLReduction over an arbitrary record of FT operations (`HouseModel.v`; the verbose output is not modelled); mpfr arithmetic of precision p (`MpfrModel.v`: correctly rounded, no NaN/infinity/exponent bounds) | refuted: eta takes no part in a run (by conversion); two runs end with success on bases that are not size reduced for eta |
| C38 | same | invariant on shapes and on the integer part (Inv of C01 for the rows discovered so far, `HouseProofs.v`) for 2 <= rows <= columns; refuted for one row (any FT) and for rows > columns |
| C39 | IoModel.v: Matrix::print (both modes, nrows/ncols), print_comma, Matrix::read, vector and mpz operator>> over character lists; failbit = None. The numerical string conversions of GMP are modelled as decimal notation; Z_NR<long> input (std::istream) is not modelled | grammar as inductive relations (IoProofs.v); reader equivalent to the grammar; round trip in PropIo.v; four refutations |
| C40 | MatStore.v: Matrix with r, c and the vector of rows including rows and elements left over from earlier sizes; resize, fill, transpose, swap_rows, clear, gen_zero | PropMatrix.v: simulation of a partial table of entries over all histories; refutations with short histories |
| C41 | GenModel.v convert: clear, resize, threshold, early return, source long or mpz; shift range and abs(LONG_MIN) as undefined behaviour | PropConvert.v: loop invariant in the order of the two loops |
| C42 | GenModel.v: all gen_* of ZZ_mat over arbitrary old storage; a random number is an arbitrary value reduced to its range, indexed by the entry it goes to; pow and set_f are inputs | GenProofs.v: tables of writes for nested loops; PropGen.v: shapes, determinant by Laplace expansion |
| C43 | DblModel.v: doubles are IEEE 754 binary64 data (Flocq's `binary_float 53 1024`), ilogb, ldexp with the conversion of its argument to int, cast to long with undefined behaviour out of range; get_si_exp_we, rnd_we | DblProofs.v over the reals with Flocq's correctness theorems; PropDbl.v; refuted outside the int range of the exponent and where the rounded value exceeds the range of doubles.  Uses the axioms of Coq.Reals (incl. `classic`) |
| C44 | DblModel.v: dpe numbers (double mantissa, int exponent, overflow of int undefined), dpe_normalize by the IEEE fields as in the x86 branch, add, sub, mul, div, sqrt, cmp, round, set_d, set_z, get_si_exp, get_z_exp, hypot; not modelled: dpe_pow_si, printing, the portable frexp branch.  `dpe_scale` multiplies by 2^-i, the table's decimal constants are proved to round to it | PropDbl.v: correct rounding (mul, div, sqrt, near sums), relative error (all sums), order; refuted for zero operands, subnormal doubles, square root of zero, conversion of integer zero, far sums.  Axioms of Coq.Reals |
| C45 | reset schedule of closest_vector (`max_idx`) | loop invariant: entries above the current record are final; result = first position of the prefix maximum |
| C46 | initial radius of closest_vector (`cvp_radius`) | Babai's point has squared distance at most a quarter of the sum of the r_i; Lovasz condition bounds r_0; refuted for one row |
| C47 | shortest_vector_ex after the enumeration, shortest_vectors, shortest_vector_pruning with auxiliary solutions, ExactErrorBoundedEvaluator::eval_sol (`SvpModel.v`); the reports of the enumeration are an arbitrary list, or those of the model of C17-C19 | the container invariant of C23 for both evaluators; refuted for max_sols = 1 (outputs untouched), for "max_sols vectors", and undefined when auxiliary solutions are wanted and nothing is found |
| C48 | `PrunerModel.v`: save_coefficients, load_coefficients, enforce, greedy over canonical rationals, checked vector accesses; decimal literals of enforce and the rounding of its status sum are parameters, node counts of greedy are an oracle | loop invariants (`PropPruner.v`): enforce = running maximum / minimum of cut entries; witnesses for the refuted cases |
| C49 | `PruneVolModel.v`: eval_poly, integrate_poly, relative_volume over the reals, exact factorial table | polynomial loop computes an iterated integral (`PruneVolProofs.v`, Coquelicot); order of integrals by induction on the dimension |
| C60 | `PruneVolModel.v`: svp_probability_evec, _lower, _upper, svp_probability over the reals, shell ratio a parameter; "NaN or inf" only as division by zero | scaling and shell monotonicity of the iterated integral (`PropPruneVol.v`) |
| C61 | `PruneCostModel.v`: single_enum_cost_evec, _lower, _upper, single_enum_cost, the public overloads and load_coefficients over the reals; rv, detailed_cost and all index computations checked | loop invariants; relative volumes rescaled to the iterated integral of C49 (`PropPruneCost.v`), counterexample in dimension 6 (`PropPruneShape.v`) |
| C62 | `PruneCostModel.v`: load_basis_shape(s), gaussian_heuristic, expected_solutions*, measure_metric, target_function, repeated_enum_cost over the reals; "not finite" as `None` (division by log 1, logarithm of a negative number); `(float)(-n)` taken as exact | loop invariants, exp/ln algebra (`PropPruneShape.v`) |
| C63 | `HouseModel.v` instantiated with exact reals (`HouseReal.v`: `r_hops`, the value of x/0 arbitrary); delta is in the place of eta as C37 shows | invariant on R, V, sigma, bf, row_expo, R_history, norm_square_b through every step (`HouseRun.v`, `HlllRun.v`), reflections preserve inner products, R-factor of `HlllSpec.v` unique for independent rows (`HlllSpecFacts.v`, `PropHlllExact.v`); floating-point rounding is not covered |
| C64 | `HlllCheckModel.v`: update_R_naively, get_R_naively, is_hlll_reduced over an arbitrary record of FT operations | exact reals (`NaiveReal.v`, `PropHlllCheck.v`): decides reducedness without row exponents; with row exponents the Lovasz test is characterised, right for rows of equal bit length, refuted both ways with mpfr operations |
| C65 | `StratModel.v`: Strategy, BKZParam's table, get_pruning, LinearPruningParams in binary64 (Flocq), load_strategies_json on a document given as the list of its entries (JSON parsing itself, metric and detailed_cost dropped) | `PropStrat.v`: invariant of the search loop with rounding monotone, table by induction on the document; refuted for quotients farther than 2^80 from every factor and for LinearPruningParams(0, .); uses the axioms of `Reals` and `classic` |
| C66 | `BkzTourModel.v`: svp_preprocessing, svp_reduction, trunc_tour, trunc_dtour, hkz, tour, sd_tour, slide_tour, the main loop and the final HKZ calls as a trace of calls; the basis (LLL, size reduction, enumeration, radius, potential) is an arbitrary oracle; out-of-range reads, endless loops and exceptions are distinct outcomes; remaining_probability in binary64 | `PropBkzTour.v`: a program logic `safe` over the trace, termination of the recursion by block size and of the trials because remaining_probability falls strictly (units of 2^-1074); slide tours are only shown not to leave the basis, their termination is not claimed; refutations: table too short, preprocessing size not smaller (endless recursion, rows before the block), zero basis, SD-BKZ with block_size > num_rows, short pruning vector, blocks of three rows with a second trial, expectation 2^-54; axioms of `Reals` and `classic` |
| C67 | `ShapeModel.v`: get_current_slope, get_log_det, get_root_det, get_slide_potential, adjust_radius_to_gh_bound, the radius of svp_reduction and the arguments of Strategy::get_pruning over exact reals, mantissa and exponent kept apart, division by zero is `None`, lgamma an argument (right at half-integers) | `PropShape.v`: sums of centred weights, ln/exp algebra, ball volumes by recursion V_{n+2} = 2 pi/(n+2) V_n; refutations: one row, empty range, start_row of the potential unused (rows from 0 are taken), dual blocks are capped by the heuristic of the primal block, the lookup quotient is max(1, r/GH^2) and uses the uncapped radius; rounding is not covered |
| C68 | `OptModel.v`: enforce, save_coefficients, greedy, target_function_gradient, gradient_descent(_step), nelder_mead_step, the two cores, incr/decr_prob, local_adjust_prob, local_adjust_decr_single, _incr_prob, _smooth, preparation, vary_prob, fixed_prob, optimize_coefficients over exact reals; target_function, measure_metric, single_enum_cost and greedy's node count are arguments (instantiated in `PropOptCases.v` with those of C61/C62); exceptions, accesses outside a vector and lack of fuel are distinct outcomes; not modelled: rounding, an infinite weight in incr/decr_prob (a zero sum of detailed costs, see C69), the unsigned turn counter of Nelder-Mead, verbosity | `OptProofs.v`, `PropOpt.v`, `PropOptMain.v`: `does P f` = there is an outcome that every large fuel gives, it is no access outside a vector and no Nelder-Mead exception, and a returned value has `P`; descents: the cost falls by 0.5% per successful step above a positive floor; greedy: factor 0.98 down to 1/1000; `PropOptCases.v`: the floor and positivity hold for the real cost functions, cases on Z^4, refutations on Z^4 (local_adjust_prob alternates between two vectors for ever) |
| C69 | `ProbDblModel.v`: incr_prob, decr_prob, the writes to detailed_cost, enforce (j = 0), load/save_coefficients for FT = double, in binary64 (Flocq; one NaN, comparisons as in nr_FP_d.inl, `!=` through cmp as in nr_FP.inl); measure_metric and the costs of the levels of one half are arguments that may throw; other FT not modelled | `ProbDblProofs.v` (sums, quotients and moves of non-negative doubles, with overflow), `PropProbDbl.v`: `odd_profile_unchanged` (one turn: zero weights and a NaN, which compares equal), refutations of reaching the target in dimension 3, `even_profile_good` (invariant of the loop, 10001 turns as measure), cases in dimension 2 |
| C70 | `LllModel.v` (lll, babai, early reduction, as for C12) over exact rationals with any exact rounding (`exact_rounding`: nearest integer, conversions exact); `LllLimitModel.v`: get_max_exp_of_b and the limit of lll.cpp:79-80, over the reals and in binary64 with C ints (the logarithm is an argument, overflow of int and of the conversion to long long are undefined behaviour) | `GramDet.v`, `LatPot.v` (potential as product of Gram determinants, an integer, so at least 1; at most N^(d(d-1)/2); falls by delta with each insertion), `LllTotal.v` (babai ends after two passes, every insertion lowers the potential), `PropLllTotal.v`: `lll_exact_total`, `lll_exact_within_limit`, `lll_exact_within_computed_limit`; `PropLllLimit.v`: the computed limit is within two percent, refutations for delta = 1, delta just below 1, 32768 rows; no statement for inexact arithmetic, kappa_min > 0 or dependent rows |
| C71 | `BkzExactModel.v`: svp_reduction, trunc_tour, hkz, tour, the main loop of bkz() and the skipping of zero rows, built from the models of LLL (C12), enumeration (C29) and insertion (C20) over exact rationals; not modelled: strategies, pruning, preprocessing tours, rerandomisation, Gaussian heuristic radius, dual and slide variants, time limits, auto-abort, printing. Specification: `BkzSpec.v` (projection by the defining equations of Gram-Schmidt, lattice vectors as integer combinations) | `LatProj.v` (projected lengths, change of basis), `LllKeep.v` (what LLL and size reduction keep), `BkzExact.v` (one block), `BkzHkz.v` (invariant: the first k Gram-Schmidt vectors are shortest; LLL can insert no row before k), `BkzTotal.v` (the call returns), `PropBkzExact.v`: `hkz_exact_reduced`, `bkz_exact_total`, `clean_tour_reduced`; refuted with witnesses: RED_SUCCESS implies BKZ-reduced (4 rows, block size 3, without LLL before), last row size-reduced (3 rows, delta = 0.9, bkz.cpp:438). Open: whether RED_SUCCESS implies BKZ-reduced for an LLL-reduced start after several tours; number of tours |
| C72 | `TopModel.v`: the constructor and enum_next of Enumerator, line by line, with its state kept between calls; sphere_volume and cost_estimate over the reals. mpfr numbers are exact rationals, the two comparisons of the estimate with max_volume are arguments of the model and, in the `_real` theorems, the real cost_estimate; reading index -1 is a distinct outcome. Conversion of coordinates to double is not modelled | `TopProofs.v` (state of the sweep determines the set of vectors still to come; each pass removes exactly the subtree it hands out or vectors beyond the bound; budget per level for termination), `PropTop.v`: `top_once`, `top_once_real`, `top_cover`, `top_inside`, `top_terminates`, `top_terminates_real`, `split_enumerate`, `split_enumerate_total` (with C20's model of enumerate on each subtree), `sphere_volume_ball`; refuted: `top_tie_refuted`, `split_dim1_refuted` |
| C73 | `ZnrModel.v`: the arithmetic, exponent, mod, set_str, nextprime and randb functions of Z_NR<long>, Z_NR<mpz_t> and Z_NR<double>, function by function; signed overflow, shifts out of range or of negative numbers to the left (C++11) and division by zero are a distinct outcome. GMP, strtol and strtof are taken with their documented meaning (base 10); strings read by Z_NR<double> are represented by the integer they denote; randm and the remaining get/set functions are not modelled | `PropZnr.v`: `long_value`, `long_exact`, `mpz_exact`, `mod_agree`, `mpz_exponent_ok`, `long_exponent_ok`, `dbl_exponent_ok`, `long_set_str_ok`, `long_set_str_prefix`, `mpz_set_str_ok`, `dbl_exact`, `long_nextprime_ok`, `long_randb_range`, `mpz_randb_later`; refuted: `long_addmul_refuted`, `long_shift_refuted`, `mpz_addmul_refuted`, `mod_refuted`, `long_exponent_refuted`, `long_set_str_refuted`, `dbl_set_str_refuted`, `dbl_arith_refuted`, `long_nextprime_refuted`, `mpz_randb_refuted` |
| C74 | `CanonModel.v`: to_canonical, from_canonical and the four babai functions of MatGSO and MatGSOInterface, loop by loop, over exact rationals; rounding is any nearest-integer function; reads outside a vector, negative sizes and division by zero are a distinct outcome. get_mu and get_r return given numbers, assumed to be the Gram-Schmidt data in the theorems; the default argument dimension = 1 of gso_interface.h:480 (elsewhere -1) is not modelled | `PropCanon.v`: `from_canonical_ok`, `to_canonical_coords`, `to_canonical_gs`, `from_to_canonical`, `to_from_canonical`, `babai_gs_ok`, `babai_can_ok`, `babai_can_gso`, `babai_can_recovers`, `babai_can_distance`; refuted: `to_canonical_start_refuted`, `babai_short_refuted` |
| C75 | `ErrModel.v`: init_delta_def, get_max_error_aux, get_max_error (fast), int_dist2Float and the radius of svpcvp.cpp over the reals, one rounding per mpfr operation, in the direction the code gives; roundings are arguments. Overflow, underflow, the exponent scaling of r and the dual enumeration are not modelled | `PropErr.v`: `max_error_aux_ok`, `svp_radius_ok`, `int_dist2Float_ok`, `get_max_error_ok`, `init_dr_ok`, `init_dm_ok`; the assumed roundings hold for 53 bits: `mpfr53_up`, `mpfr53_down`, `mpfr53_near`, `flx_dbl`; refuted: `get_max_error_negative_refuted`, `init_dr_nonneg_refuted`, `init_dm_row_refuted` |
| C76 | `ExtModel.v`: ExternalEnumeration with its three callbacks, Enumeration::enumerate, the choice of the template in enumlib and the reporting of sub-solutions, get_nodes; an external enumerator is any finite tree of callbacks, the number types are arguments, lattice_enum_t is an argument here (see the enumeration properties) | `PropExt.v`: `set_config_ok`, `set_config_small`, `ext_same_data`, `ext_dual_bound_zero`, `run_ext_inv`, `run_ext_heeds`, `norm_exp_largest`, `sol_coords_ok`, `sub_coords_ok`, `lib_dim_ok`, `enumlib_runs`, `enumlib_fallback`, `enum_pruning_abort`, `report_subs_ok`, `get_nodes_ok`, `ext_fmaxdist_kept`; refuted: `lib_max_refuted`, `ext_fmaxdist_refuted`, `ext_dual_bound_refuted`, `ext_dual_normexp_refuted`, `get_nodes_refuted` |
| C77 | `PrecModel.v`: compute_min_prec over the reals with one rounding per mpfr operation in the direction of the code, hlll_min_prec with exact operations; conversion of NaN, infinities and out-of-range values to int is undefined; overflow of double not modelled | `PropPrec.v`: `rho_ok`, `gso_min_prec_ok`, `l2_min_prec_ok`, `gso_prec_error`, `gso_min_prec_least`, `l2_min_prec_total`, `up53`, `dn53`, `eta_half_exact`, `h_alpha_root`, `hlll_min_prec_ok`, `l2_delta_one_refuted`, `l2_eta_half_refuted`, `l2_empty_refuted`, `hlll_checks_refuted` |
| C78 | `BkzDualModel.v` (on `BkzExactModel.v`, exact rationals): the dual input of the enumerator, insertion at the end of the block, dual svp_reduction, sd tours, bkz() with BKZ_SD_VARIANT; empty strategies; specification `BkzDualSpec.v`. `EnumDual.v` turns a run in dual mode into one in primal mode over the dual basis in reverse order | `DualLat.v`, `BkzDual.v`, `PropBkzDual.v`: `dual_enum_shortest`, `dual_svp_reduced`, `dual_svp_total`, `sd_bkz_total`, `clean_sd_tour_reduced`, `sd_loop_success_reduced`, `sd_success_output_refuted` |
| C79 | `BkzSlideModel.v` (on `BkzExactModel.v`, `BkzDualModel.v`; exact rationals, potential as the product whose logarithm the code sums): primal tours, dual tour, slide_tour, the main loop, HKZ reduction of the blocks afterwards, bkz() with BKZ_SLD_RED; specification `BkzSlideSpec.v`. Proof by the Gram determinants of the first i beta and i beta + 1 rows: no step increases them, every insertion decreases one | `BlockAct.v`, `LatBlock.v`, `BkzSlide.v`, `PropBkzSlide.v`: `slide_success_reduced`, `slide_loop_terminates`, `slide_bkz_total`, `slide_output_size_reduced_refuted` |
| C80 | the model of C63 (`HouseModel.v` with the real operations of `HouseReal.v`). One pass of size_reduce makes the transformed row half-reduced, a second pass changes nothing; the squares of the diagonal of R are the rational norms of `QGs.v` (`HlllBridge.v`), so that a swap lowers one Gram determinant and a step forward none | `HlllTotal.v`, `PropHlllTotal.v`: `hlll_exact_total`, `hlll_small_delta_refuted` |
| C81 | the whole of main.cpp but the input streams (a parameter: valid or not) and read_pruning_vector (unused); strings and atoi are modelled, double and atof are arguments; the call of the library is recorded with its arguments. The meaning of a command line is a separate grammar, field by field (`CmdSpec.v`) | `CmdModel.v`, `CmdProofs.v`, `PropCmd.v`: `cmd_meaning`, `cmd_only`, `cmd_safe`, `call_has_settings`, `output_has_format`, `when_it_runs`, `text_int_right`, `text_int_none`, `format_items`, `format_read`, `printed_is_computed`, `pruner_defined`, `nolll_bkz`, `option_r_sets_c`, `option_r_refuted`, `nolll_hkz_refuted`, `last_action_refuted`, `cvp_empty_target_refuted` |
| C82 | the choice of type and precision, set_prec (int to unsigned and back), fpu_fix, the verbose sentence, zeros_first/zeros_last, the LLL wrapper inside bkz_reduction (that of `WrapperModel.v`); the reductions, the BKZ run and the pruner are any functions of the matrices and of the settings they run under. The arithmetic used is recorded as a ghost and compared with a specification that lists mantissas and types | `EntryModel.v`, `PropEntry.v`: `lll_entry_right`, `hlll_entry_right`, `entry_refuses`, `hlll_verify_right`, `hlll_wrapper_entry_right`, `hlll_wrapper_entry_empty`, `bkz_entry_right`, `bkz_block_form_right`, `bkz_entry_transform`, `bkz_stops_on_lll_failure`, `prune_window_right`, `run_pruner_right`, `bkz_precision_lost_refuted`, `bkz_dd_control_word_refuted`, `negative_precision_refuted`, `run_pruner_precision_lost_refuted`, `prune_window_one_row_refuted`, `prune_window_table_refuted` |
| C83 | main of latticegen over the generators of `GenModel.v`; negative dimensions and bits as the code treats them (exception, GMP limit, undefined behaviour are outcomes of their own); memory is unlimited. The documented command lines are an inductive grammar with the printed matrix as a predicate | `LatGenModel.v`, `PropLatGen.v`: `latticegen_documented`, `latticegen_no_overread`, `latticegen_prints_only`, `latticegen_seed`, `readme_s_refuted`, `readme_t_refuted`, `readme_n_uniform_refuted`, `method_word_refuted`, `negative_dimension_refuted`, `bad_parameters_refuted`, `missing_input_refuted` |
| C84 | the table as (digits, exponent) pairs, polynomial evaluation and integration, relative volume, probability, expected solutions, the metric and the tail of prune in binary64 with out-of-range reads as undefined behaviour; the optimiser, cost and Gaussian heuristic of prune are arguments. The table is checked against the factorial by computation over a recurrence, the rest is proved for all arguments | `FactTable.v`, `PruneTabModel.v`, `PropPruneTab.v`: `factorial_table_right`, `factorial_double`, `svp_probability_throws`, `metric_never_returns`, `prune_never_returns`, `small_dimension_defined`, `max_dimension_refuted`, `constructor_accepts`, `nan_target_refuted` |
| C85 | apply_transform over the models of create_rows, row_addmul_we, row_swap, row_op_end and remove_last_rows; an entry of T enters through the integers of get_si_exp_we and get_z_exp_we. Proved with an invariant over both loops. Missing: a second transformation with fewer rows than an earlier one (capacity above d + rows), MatGSOGram, and what the floating-point cache holds (only that it is defined) | `GsoTransformModel.v`, `PropGsoTransform.v`: `transform_applied`, `transform_keeps_lattice`, `goodb_ok`, `transform_undiscovered_refuted`, `transform_inverse_refuted` |
| C86 | the table as (digits, exponent) pairs generated from the file; strtod as rounding to nearest of the decimal number, with gradual underflow. 2 pi is enclosed to 40 digits with the series of PI_2_3_7_ineq; neighbours at distance two are compared with the recursion by computation and the errors are added up in a proof over the list. Only the conversion to double is covered, not that to long double or MPFR | `BallTable.v`, `BallModel.v`, `PropBall.v`: `ball_table_right`, `ball_double`, `pi_bounds`, `ball_step` |
| C87 | the six functions over the model of the GSO object with its cache; a buffer is the list of its cells, writes outside are undefined, a vector passed by value is a copy, mu and r above the diagonal hold arbitrary values. Missing: the branch of get_max_gram without integer Gram matrix is modelled but nothing is proved about it | `GsoReadModel.v`, `PropGsoRead.v`: `dump_mu_right`, `dump_r_right`, `default_block_out_of_range`, `max_bstar_right`, `max_gram_right`, `dump_mu_vector_refuted`, `max_bstar_expo_refuted`, `max_gram_bstar_refuted` |
| C88 | main of llldiff over the model of Matrix::read (C39) and of the comparison (C50); the specification of the input is the grammar of matrix texts; a file is its content or nothing if it cannot be opened. Not modelled: errors of the device while reading | `LlldiffModel.v`, `PropLlldiff.v`: `args_total`, `help_and_wrong_options`, `llldiff_program_right`, `llldiff_program_ends`, `llldiff_one_matrix_undefined`, `llldiff_program_success_refuted` |
| C89 | numbers are the integers they hold; GMP, MPFR and QD with their documented meaning (the comment at the head of SetZModel.v lists what is used of QD); x87 long double. Not modelled: set_z from Z_NR<double>, expo_add other than 0 in get_z_exp_we | `SetZModel.v`, `PropSetZ.v`: `set_z_truncates_or_rounds`, `dd_set_z_right`, `dd_get_z_exp_right`, `qd_set_z_is_double`, `dd_set_z_normal_refuted`, `qd_set_z_refuted`, `dd_of_long_refuted`, `dd_round_trip_refuted`, `dd_get_long_refuted` |
| C90 | seen by the calling thread: the workers with their stop flags and the list of what the caller does to them; the concurrent behaviour of workers is in PoolModel.v. Not modelled: failure to create a thread, enqueue, calls of resize by several threads | `ThreadsModel.v`, `PropThreads.v`: `set_threads_right`, `set_threads_last`, `resize_right`, `run_right`, `set_threads_cores_refuted` |
| C91 | the control flow of bkz() with tours, limits and post processing answered from outside, the characters of the file, the lines on the error stream; JSON is the grammar of RFC 8259 with the values denoted (JsonSpec.v). Not modelled: the digits that the C++ library chooses for a double (given by their parts), failures of writing other than at opening, the text on the error stream, print_params | `DumpModel.v`, `JsonSpec.v`, `PropDump.v`: `dump_is_json`, `dump_unfinished_not_json`, `dump_infinite_not_json`, `no_dump_no_file`, `quiet_right`, `dumped_right`, `dump_success_json_refuted`, `quiet_refuted`, `dumped_norm_refuted` |
| C92 | the static state of RandGen as an optional state of an arbitrary generator, the calls as a list; the clock is a sequence of times. Not modelled: the leak of the old state by a second init, rounding of Z_NR<double>::randb above 53 bits, randb_si and randm_si (their member RandGenInt::initialized is defined in no file of the library) | `RandModel.v`, `PropRand.v`: `seed_reproducible`, `default_reproducible`, `random_range`, `randb_forgets`, `randb_period`, `randb_next`, `randb_small_is_gmp`, `randb_is_gmp_refuted` |
| C93 | get_si_exp_we and the choice of the branch in row_addmul_we on the integer x * 2^expo_add, a list of doubles that are integers; the conversion to long and to_int out of range are undefined. Not modelled: x * 2^expo_add not an integer, overflow of double | `MulModel.v`, `PropMul.v`: `multiplier_is_first`, `multiplier_long_is_first`, `multiplier_error`, `passes_exact`, `row_addmul_exact_refuted` |
| C94 | numbers as integer multiples of the smallest positive value of the type; ldexp rounds to nearest, ties to even. Not modelled: integers of more than 2^31 bits, Z_NR<double> | `RowExpoModel.v`, `PropRowExpo.v`: `row_expo_is_max`, `row_exact`, `row_error`, `row_below_one`, `row_has_half`, `row_nonzero_refuted`, `row_dd_refuted` |
| C50 | llldiff and the end of its main (`CliModel.v`) | the flag is the conjunction of the row tests; case split on the signs of the first entries; refuted for rows starting with 0 and for different shapes |
| C51 | bkz() loop and test_abort (`BkzLoop.v`), tours/clock/slopes arbitrary sequences | fuel bound from max_loops; measure (values below minimum, remaining no_dec) for auto abort; refuted for scale > 1 and for negative values. What a tour does inside (svp_reduction, slide inner loop) is not modelled |
| C52 | main.cpp svpcvp, vector_matrix_product, lll_reduction(b, u) on top of the wrapper model; the search is an arbitrary function, format any string | the wrapper keeps an empty u empty, so the dimension check aborts; without LLL, and for the default output, what is printed is right |
| C53 | MatGSOGram (`GramModel.v`) | each step acts on g as on the rows of u; ghost matrix T; witness history for moves past the known rows |
| C54 | Babai loop of closest_vector (`babai_loop` in `CvpModel.v`) | the residual coordinates after one pass are at most 1/2; a two-cycle with exact ties refutes termination |
| C55 | closest_vector end to end (`closest_vector`) | the loop keeps target + sum fixed, distances are translation invariant, then C18/C23 |
| C56 | exceptions in bkz() (`BkzLoop.v`) | refuted: runtime_error is not caught by the RedStatus handlers |
| C57 | eval_sub_sol (`eval_sub` in `EvalModel.v`) | induction over the reports from the right |
| C58 | the transition system of C26 | ids count the started threads; explicit schedules (257 threads; copy of *this against the merge of 490-498) |
| C59 | shortest_vector in exact arithmetic: last_useful_index, get_basis_min, initial bound, both evaluators, both enumeration loops; the error term added to the bound is an arbitrary monotone function | the enumeration finds every vector within the current bound (C17, C18); a vector at most as long as b_0 has no component along dropped rows; refuted for SVP_DUAL with SVPM_PROVED (int_max_dist never set) |
