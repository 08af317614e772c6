{
 "claims": [
  {
   "property": "C01",
   "status": "proved",
   "theorems": [
    "C01_slice_is_python"
   ],
   "note": "All int start/stop/step (optional) and all dimension lengths."
  },
  {
   "property": "C02",
   "status": "partial",
   "theorems": [
    "C02_slice_index_partial",
    "C02_slice_index_refuted"
   ],
   "note": "In-range indices proved; constructing a Slice from the int INT_MAX overflows (refuted)."
  },
  {
   "property": "C03",
   "status": "partial",
   "theorems": [
    "C03_slice_chain_partial",
    "C03_slice_defined_partial",
    "C03_view_never_leaves_matrix",
    "C03_slice_chain_refuted"
   ],
   "note": "Chains of any depth proved equal to Python composition whenever no int overflow happens; overflow witness given."
  },
  {
   "property": "C04",
   "status": "proved",
   "theorems": [
    "C04_nested_blocks",
    "C04_block_of_view",
    "C04_block_rejects",
    "C04_segment_row_col",
    "C04_segment_row_col_of_view"
   ],
   "note": "Blocks of blocks to any depth; blocks of an arbitrary strided view need its ends to fit in an int."
  },
  {
   "property": "C05",
   "status": "partial",
   "theorems": [
    "C05_view_assign_partial",
    "C05_view_assign_refuted"
   ],
   "note": "Exact frame for non-overlapping (or not-yet-overwritten) sources; overlapping source views refuted."
  },
  {
   "property": "C06",
   "status": "proved",
   "theorems": [
    "C06_matrix_product",
    "C06_matrix_product_rejects",
    "C06_entrywise",
    "C06_entrywise_rejects"
   ],
   "note": "For every element type whose operators compute the real operations on values."
  },
  {
   "property": "C07",
   "status": "partial",
   "theorems": [
    "C07_mul_assign_partial",
    "C07_add_sub_assign",
    "C07_mul_assign_refuted"
   ],
   "note": "Non-aliased right-hand side proved; A *= A refuted."
  },
  {
   "property": "C08",
   "status": "partial",
   "theorems": [
    "C08_block_concatenates_partial",
    "C08_block_concatenates_refuted"
   ],
   "note": "Nonempty grids proved; block of the empty list has -1 columns (refuted)."
  },
  {
   "property": "C09",
   "status": "partial",
   "theorems": [
    "C09_solve_partial",
    "C09_solve_refuted"
   ],
   "note": "2x2..4x4 with any B, 1x1 with one right-hand side; 1x1 with a wide B refuted."
  },
  {
   "property": "C10",
   "status": "proved",
   "theorems": [
    "C10_view_iteration",
    "C10_matrix_iteration"
   ],
   "note": ""
  },
  {
   "property": "C11",
   "status": "proved",
   "theorems": [
    "C11_pool_safe",
    "C11_pool_total"
   ],
   "note": "Requests no larger than the block size the chunks were cut to."
  },
  {
   "property": "C12",
   "status": "partial",
   "theorems": [
    "C12_size_served_partial",
    "C12_mixed_sizes_refuted"
   ],
   "note": "Holds when the request that extends the pool is the largest; otherwise refuted."
  },
  {
   "property": "C69",
   "status": "partial",
   "theorems": [
    "C69_cross_thread_refuted"
   ],
   "note": "Refuted: the block of a dead thread's pool is handed out again."
  },
  {
   "property": "C13",
   "status": "proved",
   "theorems": [
    "C13_no_use_after_free",
    "C13_alive_iff_reachable",
    "C13_plain_acyclic"
   ],
   "note": "Fewer than 2^32 handles alive at a time (the counts are 32 bits)."
  },
  {
   "property": "C14",
   "status": "partial",
   "theorems": [
    "C14_assign_from_variable_partial",
    "C14_assign_from_inner_partial",
    "C14_handle_assign_refuted"
   ],
   "note": "Safe from any variable, and from a handle in a node that outlives the release; p = p->args[0] on the sole owner refuted."
  },
  {
   "property": "C15",
   "status": "proved",
   "theorems": [
    "C15_release_exact"
   ],
   "note": ""
  },
  {
   "property": "C16",
   "status": "proved",
   "theorems": [
    "C16_topological_sort",
    "C16_reachable_graphs"
   ],
   "note": "Any scalar type, any acyclic graph."
  },
  {
   "property": "C17",
   "status": "partial",
   "theorems": [
    "C17_value_is_evaluation",
    "C17_value_of_user_expression_partial",
    "C17_value_of_user_expression_refuted"
   ],
   "note": "Graph evaluation for every scalar type; agreement with the mathematical expression over the reals except where 0 to the power 0 occurs (refuted there)."
  },
  {
   "property": "C18",
   "status": "proved",
   "theorems": [
    "C18_value_is_fresh",
    "C18_only_set_value_changes_leaves",
    "C18_statements_succeed"
   ],
   "note": "All histories of construction, copy, assignment, set_value and value."
  },
  {
   "property": "C19",
   "status": "partial",
   "theorems": [
    "C19_simplify_unary",
    "C19_simplify_binary_partial",
    "C19_simplify_binary_refuted"
   ],
   "note": "All operators; pow at base 0 and exponent 0 refuted."
  },
  {
   "property": "C20",
   "status": "partial",
   "theorems": [
    "C20_fold_unary_partial",
    "C20_fold_binary_partial",
    "C20_fold_refuted"
   ],
   "note": "Exact list of operands where folding deviates from the floating-point operation."
  },
  {
   "property": "C21",
   "status": "proved",
   "theorems": [
    "C21_type_degree"
   ],
   "note": "Wherever the operations of the expression are mathematically defined."
  },
  {
   "property": "C22",
   "status": "proved",
   "theorems": [
    "C22_jacobian_partials",
    "C29_programs",
    "C29_programs_extended"
   ],
   "note": "Over the reals; Gradient is the one-row Jacobian. C29_programs states the same for whole programs in terms of the expressions as written, also with infinities and NaN. Distinct wrt variables, smooth point, constants not reassigned after construction (see C28)."
  },
  {
   "property": "C23",
   "status": "proved",
   "theorems": [
    "C23_unary_rule",
    "C23_binary_rule",
    "C23_integer_power_rule"
   ],
   "note": "All unary and binary operators at every smooth point of their domain."
  },
  {
   "property": "C24",
   "status": "proved",
   "theorems": [
    "C24_abs",
    "C24_max",
    "C24_min",
    "C25_get_is_value"
   ],
   "note": "Agreement of symbolic and numeric mode at kinks is C25, whose hypothesis includes the kinks."
  },
  {
   "property": "C25",
   "status": "proved",
   "theorems": [
    "C25_get_is_value"
   ],
   "note": "Jacobian and Hessian objects, any later history, all regular points including kinks."
  },
  {
   "property": "C26",
   "status": "proved",
   "theorems": [
    "C26_derivatives_leave_graph"
   ],
   "note": "Any scalar type, any history."
  },
  {
   "property": "C27",
   "status": "proved",
   "theorems": [
    "C27_value_fresh"
   ],
   "note": "Any scalar type, any history that does not reassign constants (C28)."
  },
  {
   "property": "C28",
   "status": "partial",
   "theorems": [
    "C28_constant_update_refuted"
   ],
   "note": "False of the code: cached linear rows keep the old constant."
  },
  {
   "property": "C29",
   "status": "proved",
   "theorems": [
    "C29_programs",
    "C29_programs_extended",
    "C29_hessian_partial"
   ],
   "note": "C29_programs: every program over variables, Jacobians and Hessians that the user-level semantics accepts (wrt: distinct decision variables; constants not reassigned; get() excluded) shows the second partial derivatives of the expressions as written at every smooth point, in either order, symmetric when full, zero above the diagonal when lower. C29_hessian_partial is the earlier graph-level statement, which also covers objects from get()."
  },
  {
   "property": "C30",
   "status": "partial",
   "theorems": [
    "C30_repeated_wrt_refuted"
   ],
   "note": "False of the code: value() fills the last repeated column, get() the first."
  },
  {
   "property": "C44",
   "status": "partial",
   "theorems": [
    "C44_accepted_partial",
    "C44_remembers",
    "C44_records",
    "C44_progress_partial",
    "C44_entries_partial",
    "C44_feasible_point_refuted"
   ],
   "note": "Not dominated, within the maximum and never forgotten for all histories with NaN and infinities; strict progress and pairwise incomparable entries need positive violation at the current point, and are refuted without it."
  },
  {
   "property": "C45",
   "status": "partial",
   "theorems": [
    "C45_rejects_nonfinite_partial",
    "C45_nan_violation_refuted"
   ],
   "note": "Non-finite cost and infinite violation rejected; NaN violation is accepted (refuted)."
  },
  {
   "property": "C40",
   "status": "proved",
   "theorems": [
    "C40_scaling",
    "C40_scaling_other_solvers",
    "C40_small_gradients"
   ],
   "note": "Exact real arithmetic; finite gradient and Jacobian entries (non-finite ones switch scaling off, also proved by the examples)."
  },
  {
   "property": "C41",
   "status": "proved",
   "theorems": [
    "C41_interior_point",
    "C41_sqp",
    "C41_newton",
    "C41_identity"
   ],
   "note": "Exact real arithmetic, all sizes."
  },
  {
   "property": "C42",
   "status": "proved",
   "theorems": [
    "C42_interior_point",
    "C42_sqp"
   ],
   "note": "Exact real arithmetic, all sizes."
  },
  {
   "property": "C43",
   "status": "proved",
   "theorems": [
    "C43_fraction_to_boundary"
   ],
   "note": "Exact real arithmetic, all dimensions; double precision is C74."
  },
  {
   "property": "C46",
   "status": "proved",
   "theorems": [
    "C46_regularized"
   ],
   "note": "The pivots of each factorization come from an oracle for Eigen's LDLT; the loop around it is modelled with fuel shown sufficient."
  },
  {
   "property": "C47",
   "status": "proved",
   "theorems": [
    "C47_stacked_triplets",
    "C47_diagonal_triplets"
   ],
   "note": ""
  },
  {
   "property": "C48",
   "status": "proved",
   "theorems": [
    "C48_elastic_start"
   ],
   "note": "Exact real arithmetic."
  },
  {
   "property": "C63",
   "status": "proved",
   "theorems": [
    "C63_estimate_equalities",
    "C63_estimate",
    "C63_assembly"
   ],
   "note": "Eigen's solve is an oracle assumed to have solved the linear system it is given."
  },
  {
   "property": "C64",
   "status": "proved",
   "theorems": [
    "C64_equality",
    "C64_inequality",
    "C64_feasible_point"
   ],
   "note": "Exact real arithmetic."
  },
  {
   "property": "C37",
   "status": "proved",
   "theorems": [
    "C37_bounds_exact",
    "C37_infeasible"
   ],
   "note": "Reals with infinities and NaN; any initial values. Hypothesis: linear single-variable rows store their nonzero coefficient (C38 covers the others)."
  },
  {
   "property": "C38",
   "status": "partial",
   "theorems": [
    "C38_bound_detection_partial",
    "C38_cancelling_refuted",
    "C38_foreign_variable_refuted"
   ],
   "note": "False of the code: x - x >= 0 and constraints on variables that are no decision variables trip the assertions."
  },
  {
   "property": "C39",
   "status": "proved",
   "theorems": [
    "C39_projection"
   ],
   "note": "Exact arithmetic on the reals with infinite bounds; real guesses."
  },
  {
   "property": "C57",
   "status": "partial",
   "theorems": [
    "C57_schedule",
    "C57_best_partial",
    "C57_order_refuted",
    "C57_nan_refuted",
    "C57_empty_refuted"
   ],
   "note": "scheduling proved for every interleaving; the choice is proved when no failed run is cheaper than a successful one and refuted otherwise (order dependent comparator), for NaN costs and for no guesses"
  },
  {
   "property": "C65",
   "status": "partial",
   "theorems": [
    "C65_inequality",
    "C65_equality_partial",
    "C65_equality_refuted"
   ],
   "note": "inequality list exact; equality list leaves out rows that are too large (refuted)"
  },
  {
   "property": "C66",
   "status": "proved",
   "theorems": [
    "C66_runs_with_owner",
    "C66_released_never_runs",
    "C66_all_run"
   ],
   "note": ""
  },
  {
   "property": "C67",
   "status": "proved",
   "theorems": [
    "C67_profiler_consistent"
   ],
   "note": "exact arithmetic"
  },
  {
   "property": "C68",
   "status": "proved",
   "theorems": [
    "C68_decodes",
    "C68_crash_prefix",
    "C68_recording_unique"
   ],
   "note": "lengths and indices fit 32 bits; also any crash point after the header"
  },
  {
   "property": "C70",
   "status": "proved",
   "theorems": [
    "C70_scoped_profiler"
   ],
   "note": ""
  },
  {
   "property": "C71",
   "status": "proved",
   "theorems": [
    "C71_power_of_10"
   ],
   "note": "exact log10"
  },
  {
   "property": "C72",
   "status": "proved",
   "theorems": [
    "C72_histogram"
   ],
   "note": "exact arithmetic"
  },
  {
   "property": "C50",
   "status": "partial",
   "theorems": [
    "C50_outcome",
    "C50_terminates",
    "C50_success_partial",
    "C50_step_partial",
    "C50_nan_gradient_refuted",
    "C50_nonfinite_cost_refuted"
   ],
   "note": "Every solve returns, its status means what the specification says, iterates follow accepted Newton steps and the iteration count is bounded; over the reals SUCCESS bounds the gradient. Refuted with NaN: a NaN gradient ends in SUCCESS, and the fallback step accepts a NaN cost."
  },
  {
   "property": "C34",
   "status": "partial",
   "theorems": [
    "C34_sqp_partial",
    "C34_ipm_partial",
    "C34_solve_sqp_partial",
    "C34_solve_ipm_partial",
    "C34_constant_refuted"
   ],
   "note": "C34_solve_*: for every program history and SUCCESS of its solver, every relation the user wrote holds within the tolerance at the final point, where values, multipliers and derivatives there are finite (extended reals, no rounding). False for all-constant problems (C34_constant_refuted: a == 0 with a constant 1 gives SUCCESS) and for NaN data (C51_nan_gradient_refuted)."
  },
  {
   "property": "C36",
   "status": "partial",
   "theorems": [
    "C36_newton",
    "C36_sqp_partial",
    "C36_ipm_partial",
    "C36_restoration_refuted"
   ],
   "note": "Order, completeness of rounds and reporting proved for all three solvers outside feasibility restoration; C36_restoration_refuted is a run in which a stop requested inside restoration is not reported as CALLBACK_REQUESTED_STOP, so the full statement is false of the code."
  },
  {
   "property": "C51",
   "status": "partial",
   "theorems": [
    "C51_outcome",
    "C51_terminates",
    "C34_sqp_partial",
    "C51_nan_gradient_refuted"
   ],
   "note": "Iteration bound, admissible steps and meaning of every status proved for all functions, callbacks, clocks and linear solvers; SUCCESS implies a KKT error within tolerance only when the error is not NaN: C51_nan_gradient_refuted is a run reporting SUCCESS at a NaN gradient."
  },
  {
   "property": "C52",
   "status": "partial",
   "theorems": [
    "C52_slacks",
    "C52_multipliers_partial"
   ],
   "note": "Slacks: proved for every solve, restoration included. Multipliers: proved if least-squares multiplier estimates are never NaN and (only when feasible mode is possible) inequality constraints are finite at finite points."
  },
  {
   "property": "C53",
   "status": "proved",
   "theorems": [
    "C53_update",
    "C53_reaches_floor",
    "C53_iteration",
    "C53_solve"
   ],
   "note": "Extended reals, no rounding (double precision is C76); tolerance at most 1 for the floor to be below the initial value (C53_update covers the other case with Rmin)."
  },
  {
   "property": "C54",
   "status": "proved",
   "theorems": [
    "C54_step",
    "C54_correction"
   ],
   "note": "Over the reals; the linear solver is assumed to solve the reduced system it is given (with whatever regularization it chose, which then appears in the full system)."
  },
  {
   "property": "C55",
   "status": "proved",
   "theorems": [
    "C55_newton",
    "C55_sqp",
    "C55_ipm",
    "C55_ipm_solve"
   ],
   "note": "At most 67 (Newton) and 25 (SQP, interior point) trial points for scalars with NaN and infinities; whole solves return as well. Double precision is C75."
  },
  {
   "property": "C56",
   "status": "partial",
   "theorems": [
    "C56_ipm_partial",
    "C51_outcome",
    "C50_outcome",
    "C56_restoration_refuted",
    "C56_zero_refuted"
   ],
   "note": "MAX_ITERATIONS_EXCEEDED and TIMEOUT mean the limit was hit, and at most max(1, limit) iterations run, for all three solvers; refuted for limits hit during restoration (reported as FEASIBILITY_RESTORATION_FAILED) and for limit 0 (one iteration runs)."
  },
  {
   "property": "C31",
   "status": "partial",
   "theorems": [
    "C31_relations",
    "C31_histories",
    "C31_one_per_element",
    "C31_shape_mismatch",
    "C31_infinite_refuted"
   ],
   "note": "Proved for all programs with finite (real) values; false for infinite values: x == inf converts to false (refuted with a witness). Missing: rounding, and blocks of matrices as operands (their element access is C06-C10)."
  },
  {
   "property": "C32",
   "status": "proved",
   "theorems": [
    "C32_decision_variable",
    "C32_symmetric_decision_variable",
    "C31_relations"
   ],
   "note": "After any program; C31_relations also covers reading and setting the new variables afterwards."
  },
  {
   "property": "C33",
   "status": "partial",
   "theorems": [
    "C33_ipm_partial",
    "C33_sqp_partial",
    "C33_newton_partial"
   ],
   "note": "For every history of statements and solve() calls: start point, cost and each constraint function handed to the solver are the user's, times the scaling factors; feasible points are those where all relations hold. Missing: points where an expression is undefined, starts with non-finite derivatives (their scaling factor may be 0 or NaN), infinite numbers written in the program, rounding."
  },
  {
   "property": "C35",
   "status": "proved",
   "theorems": [
    "C35_solve",
    "C35_no_solver"
   ],
   "note": "For every history and every solver, clock and callbacks; includes that the problem's definition survives. GLOBALLY_INFEASIBLE and constant problems leave the values unchanged."
  },
  {
   "property": "C58",
   "status": "proved",
   "theorems": [
    "C58_transcription",
    "C58_single_shooting"
   ],
   "note": "Any horizon, sizes, timestep method and dynamics code that computes a relation (computes); the meaning of the emitted statements is ProblemSpec.spec_run, tied to the Variable/Problem code by C31-C36. Real arithmetic."
  },
  {
   "property": "C59",
   "status": "proved",
   "theorems": [
    "C59_collocation",
    "C59_collocation_discrete"
   ],
   "note": "For nonzero timesteps; discrete dynamics fail the assertion."
  },
  {
   "property": "C60",
   "status": "proved",
   "theorems": [
    "C60_polynomial",
    "C60_linear",
    "C60_scalar"
   ],
   "note": "About the code of rk4: exact integral (Coquelicot is_RInt) for dynamics cubic in time, degree-four Taylor polynomial for any linear map, and the scalar factor."
  },
  {
   "property": "C61",
   "status": "proved",
   "theorems": [
    "C61_calls",
    "C61_for_each_step",
    "C61_for_each_step_time",
    "C61_initial_state",
    "C61_final_state",
    "C61_input_bounds",
    "C61_timesteps"
   ],
   "note": "The calls are stated for every callback; the constraint statements for callbacks that state constraints."
  },
  {
   "property": "C62",
   "status": "partial",
   "theorems": [
    "C62_initial_state_partial",
    "C62_single_shooting_refuted"
   ],
   "note": "Direct methods: the constraint holds exactly where the first state is v and such points exist. Single shooting: refuted, for every v other than zero no assignment of the decision variables satisfies the constraint (the first column of X is not a decision variable)."
  },
  {
   "property": "C49",
   "status": "partial",
   "theorems": [
    "C49_functions",
    "C49_functions_without_inequalities",
    "C49_relaxes_exactly",
    "C49_relaxes_exactly_without_inequalities",
    "C49_relaxation_is_violation",
    "C49_relaxation_is_violation_without_inequalities",
    "C49_hessian_partial",
    "C49_hessian_refuted"
   ],
   "note": "Constraints, Jacobians, cost and gradient proved for every problem; the Hessian only for constraints with constant Jacobians and refuted otherwise, because resize() discards the constraints' part."
  },
  {
   "property": "C73",
   "status": "partial",
   "theorems": [
    "C73_start_partial",
    "C73_complementarity_refuted"
   ],
   "note": "Feasibility, positivity and multiplier times constraint value equal to the barrier parameter proved (real arithmetic); complementarity with the slacks of the bounds on the relaxation variables refuted: they start at 1."
  },
  {
   "property": "C74",
   "status": "partial",
   "theorems": [
    "C74_step_partial",
    "C74_overflow_refuted",
    "C74_underflow_refuted"
   ],
   "note": "Binary64 through Flocq, any mathematics library. Partial: slacks of at least 2^-1000, tau below 1 by more than the rounding of one step per component, positivity of the moved slacks when the step is not subnormal. Refuted outside: a slack of 2^-1074 gives an infinite step, a subnormal step makes a slack negative."
  },
  {
   "property": "C75",
   "status": "partial",
   "theorems": [
    "C75_newton",
    "C75_sqp_search",
    "C75_ipm_search_partial",
    "C75_ipm_search_refuted"
   ],
   "note": "Newton's solve and the SQP search unconditionally; the interior-point search from steps computed from slacks of at least 2^-1000; from an infinite step it never ends (refuted)."
  },
  {
   "property": "C76",
   "status": "partial",
   "theorems": [
    "C76_update",
    "C76_tau_partial",
    "C76_tau_refuted"
   ],
   "note": "Termination, monotonicity and floor for every mathematics library; tau stays below 1 when the floor is at least 2^-53; refuted for a tolerance of 1e-16, where tau becomes 1 and the rule lets a slack reach 0."
  },
  {
   "property": "C77",
   "status": "proved",
   "theorems": [
    "C77_regularized"
   ],
   "note": "Binary64 through Flocq; the factorization is an oracle as in C46."
  },
  {
   "property": "C78",
   "status": "proved",
   "theorems": [
    "C78_scaling"
   ],
   "note": "Binary64 through Flocq; finite gradients and Jacobians."
  },
  {
   "property": "C79",
   "status": "proved",
   "theorems": [
    "C79_accepted",
    "C79_remembers",
    "C79_nonfinite"
   ],
   "note": "Binary64 through Flocq, infinities and NaN included, any mathematics library."
  },
  {
   "property": "C80",
   "status": "proved",
   "theorems": [
    "C80_ipm",
    "C80_sqp",
    "C80_newton"
   ],
   "note": "For every history of statements and solve() calls. Points where every expression is smooth (no kink, undefined operation or 0^0), start included since the scaling factors come from it; exact arithmetic. The upper triangle of the Hessians is zero by construction (the solvers read the lower one)."
  },
  {
   "property": "C81",
   "status": "partial",
   "theorems": [
    "C81_ipm_partial",
    "C81_sqp_partial",
    "C81_newton"
   ],
   "note": "Newton unconditionally; SQP and interior point when the final multipliers and slacks are finite (a NaN error ends in SUCCESS, C51_nan_gradient_refuted). Extended reals, no rounding; problem smooth at the start and the final point. C87_kkt discharges the finiteness for problems smooth everywhere."
  },
  {
   "property": "C82",
   "status": "proved",
   "theorems": [
    "C82_returns",
    "C82_no_linear_inequality"
   ],
   "note": "Extended reals, no rounding; needs a positive tolerance and linear-algebra routines returning vectors of the right length. Setting up with a LINEAR inequality can fail an assertion (C38_cancelling_refuted, C38_foreign_variable_refuted); C82_returns covers every problem that sets up."
  },
  {
   "property": "C83",
   "status": "proved",
   "theorems": [
    "C83_infeasible",
    "C83_setup",
    "C83_returns",
    "C83_one_variable"
   ],
   "note": "Over the extended reals; inequalities smooth at the starting values. C38 has the failing cases when a LINEAR constraint depends on no decision variable."
  },
  {
   "property": "C84",
   "status": "proved",
   "theorems": [
    "C84_warm_start",
    "C84_solve_again"
   ],
   "note": "Newton and SQP (no inequalities); the interior-point method starts with slacks 1 and does iterate, so the property is stated without inequalities"
  },
  {
   "property": "C85",
   "status": "proved",
   "theorems": [
    "C85_possible",
    "C85_overdetermined",
    "C85_finite_start"
   ],
   "note": "for the whole of solve(), on the extended-real model of arithmetic"
  },
  {
   "property": "C86",
   "status": "partial",
   "theorems": [
    "C86_transcription_partial",
    "C86_collocation_partial",
    "C86_single_shooting",
    "C86_initial_state_partial",
    "C86_final_state_partial",
    "C86_input_bounds_partial",
    "C86_timesteps_partial"
   ],
   "note": "Over the extended reals. Partial like C81: the multipliers the solver ends with must be numbers (C81 needs it) and the problem smooth at the first and last point; bounds and end states given as numbers. Single shooting needs none of this. C87 has the same statements without these conditions for problems smooth everywhere."
  },
  {
   "property": "C87",
   "status": "proved",
   "theorems": [
    "C87_numbers",
    "C87_numbers_newton",
    "C87_solve",
    "C87_again",
    "C87_kkt",
    "C87_transcription",
    "C87_collocation",
    "C87_initial_state",
    "C87_final_state",
    "C87_input_bounds",
    "C87_timesteps"
   ],
   "note": "Extended reals: exact arithmetic, so overflow of doubles is out of scope. Hypotheses: problem twice differentiable wherever the decision variables are put; linear solver and multiplier estimate return numbers of the right length (Newton: even after a failed factorization, which it does not check)."
  },
  {
   "property": "C88",
   "status": "proved",
   "theorems": [
    "C88_global",
    "C88_global_newton"
   ],
   "note": "Exact arithmetic. Problems smooth wherever the decision variables are put; the linear solver and the multiplier estimate answer numbers with numbers (as in C87). Convexity is stated about the user's functions along segments."
  },
  {
   "property": "C89",
   "status": "proved",
   "theorems": [
    "C89_one_step",
    "C89_solve",
    "C89_exact_ldlt"
   ],
   "note": "Exact arithmetic. The linear solver is assumed to solve definite systems exactly; C89_exact_ldlt shows that LDL' elimination inside the code's regularization does."
  },
  {
   "property": "C90",
   "status": "proved",
   "theorems": [
    "C90_downhill",
    "C90_direction"
   ],
   "note": "Exact arithmetic; factorization is the exact LDL' elimination of LdlModel.v (Eigen's factorizations are not modelled instruction by instruction), with at least 40 retries of fuel. The bound of 1e12 on second derivatives is a hypothesis on each point separately (beyond it the retries may give up at regularization 1e20). C90_case: minimize(x*x+y*y+x*y); C90_saddle: an indefinite Hessian."
  },
  {
   "property": "C91",
   "status": "proved",
   "theorems": [
    "C91_one_step",
    "C91_solve",
    "C91_exact_ldlt"
   ],
   "note": "In exact (extended real) arithmetic. The hypothesis on the linear solver (exact on saddle point systems with moduli of at least 1e-4) is discharged for exact LDL' elimination inside the modelled regularization by C91_exact_ldlt. Sparse ordering and pivot order of Eigen's SimplicialLDLT are not modelled."
  },
  {
   "property": "C92",
   "status": "partial",
   "theorems": [
    "C92_element",
    "C92_entry",
    "C92_block_partial",
    "C92_refused",
    "C92_step",
    "C92_negative_row",
    "C92_negative_row_refuted",
    "C92_out_of_range_refuted",
    "C92_outside_refuted",
    "C92_overflow_refuted"
   ],
   "note": "Refuted in part: M[-k, a:b] of a VariableMatrix never gives readable elements (row not counted from the end in bind_variable_matrix.cpp 203-213), M[5, :] out of range does not raise, B[2, :1] of a two-row block reads outside the block, and huge steps overflow an int. Proved otherwise, for chains of nonempty blocks with steps no longer than the dimension."
  },
  {
   "property": "C93",
   "status": "partial",
   "theorems": [
    "C93_set_partial",
    "C93_scalar",
    "C93_shape",
    "C93_same_partial",
    "C93_overlap_refuted",
    "C93_outside_refuted"
   ],
   "note": "Refuted for overlapping blocks of one matrix (M[1:3, :] = M[0:2, :] copies the first row twice) and for out-of-range ints beside slices (B[2, :1] = v writes outside B). Proved for values that are not part of the same matrix, and for blocks of it no entry of which is read after being written; same restriction on steps as C92."
  },
  {
   "property": "C94",
   "status": "partial",
   "theorems": [
    "C94_iteration",
    "C94_len_refuted"
   ],
   "note": "len(x) is the number of rows, which is not the number of entries iterated over (refuted); the rest proved for all chains of blocks."
  },
  {
   "property": "C95",
   "status": "proved",
   "theorems": [
    "C95_used",
    "C95_refused",
    "C95_order"
   ],
   "note": "nanobind's conversions of Python objects to double, int and bool are parameters; names not recognised are one class."
  },
  {
   "property": "C96",
   "status": "partial",
   "theorems": [
    "C96_distance_partial",
    "C96_feasible_refuted",
    "C96_at_once",
    "C96_ldlt"
   ],
   "note": "Refuted as stated: minimize(x * x) subject to 1e-5 * x == 0 from x = 2000 gives LOCALLY_INFEASIBLE although x = 0 is feasible, because the test compares the gradient of the violation with an absolute threshold. Proved: the point is more than 100 (inequalities: 1e-6) away from every feasible one, unless feasibility restoration answered."
  },
  {
   "property": "C97",
   "status": "proved",
   "theorems": [
    "C97_rate",
    "C97_solve",
    "C97_enough"
   ],
   "note": "Exact (real) arithmetic with infinities and NaN; factorization is exact LDL' elimination. The factor is 1 - m^2 / (1e8 L^2). Needs L <= 1e18 m, which keeps the backtracking above its smallest step."
  },
  {
   "property": "C98",
   "status": "proved",
   "theorems": [
    "C98_reads",
    "C98_same",
    "C98_exception",
    "C98_ends"
   ],
   "note": "A callback does not assign to decision variables itself; what the line searches leave in them at trial points is arbitrary. The histories of all other properties about solve() (lived) include solves left by an exception."
  },
  {
   "property": "C99",
   "status": "partial",
   "theorems": [
    "C99_interrupt",
    "C99_during",
    "C99_quiet",
    "C99_ocp_refuted"
   ],
   "note": "Proved for Problem: with a raising signal pending before the start, solve() ends within its first iteration with the decision variables as they were, whatever was added or cleared; one that comes in later ends it in the first iteration that begins with it pending (C99_during: unless a callback asks for a stop while it is pending); signals change nothing else. Refuted for OCP: its constructor does not register the check, so a pending signal does not stop OCP.solve(). C99_interrupt is about problems that set up (see C82)."
  },
  {
   "property": "C100",
   "status": "proved",
   "theorems": [
    "C100_test",
    "C100_computed",
    "C100_global",
    "C100_global_newton"
   ],
   "note": "Exact (real) arithmetic with infinities and NaN, hypotheses on the linear solver and the multiplier estimate as in C88. The functions are smooth on the whole space the decision variables range over, so no sqrt or log of a variable. C100_test is the equivalence of the test with convexity; C100_computed relates it to the Hessian that is computed."
  },
  {
   "property": "C101",
   "status": "partial",
   "theorems": [
    "C101_operands",
    "C101_refuses",
    "C101_other_ufuncs",
    "C101_assign",
    "C101_assign_refuses",
    "C101_construct",
    "C101_set_value",
    "C101_out_refuted"
   ],
   "note": "All but the last sentence of the property is proved. That one is false: __array_ufunc__ ignores its keyword arguments, so np.add(A, B, out=X) is A + X (C101_out_refuted). NumPy's and Python's dispatch and nanobind's view of an array are modelled as documented; element (i, j) of a mapped array is at data + i * outer stride + j * inner stride. X.set_value(A) is for matrices of distinct variables. VariableMatrix(A) is covered for double and float; whether nanobind takes arrays of integers there is not modelled. Operators on scalars are not covered."
  },
  {
   "property": "C102",
   "status": "partial",
   "theorems": [
    "C102_one",
    "C102_bounds",
    "C102_all_refuted"
   ],
   "note": "Refuted as stated: constraints have __bool__, so Python reduces a chain to one of its links. C102_one says which for every chain (the first that does not hold at the present values, or the last) and that nothing else is imposed; C102_bounds proves the sentence for bounds(). Exact (real) arithmetic with infinities and NaN; the links are defined at the present values and not between two numbers."
  },
  {
   "property": "C103",
   "status": "proved",
   "theorems": [
    "C103_list",
    "C103_ragged",
    "C103_diagonal",
    "C103_span",
    "C103_span_refuses",
    "C103_column",
    "C103_constant",
    "C103_identity"
   ],
   "note": "Entries are values of any type; that a number becomes a constant expression is the subject of other properties. Refusal is an assertion, as everywhere."
  }
 ]
}