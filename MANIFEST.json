{
 "claims": [
  {
   "property": "C01",
   "status": "proved",
   "theorems": [
    "C01_converged_is_feasible"
   ],
   "note": "Any ordered number type (OrdLaws); the problem, QP solver, callbacks and clock are arbitrary oracles."
  },
  {
   "property": "C02",
   "status": "proved",
   "theorems": [
    "C02_result_coherent",
    "C02_best_var_vals_are_decision_variables_refuted"
   ],
   "note": "Any number type, including NaN. Side finding: best_var_vals itself also holds the slack variables of the QP solution (\u2026_refuted)."
  },
  {
   "property": "C03",
   "status": "proved",
   "theorems": [
    "C03_accepted_steps_monotone",
    "C03_sufficient_decrease"
   ],
   "note": "Over the reals: the whole trace is a chain of non-increasing merits between penalty changes; plus the sufficient decrease of each accepted step."
  },
  {
   "property": "C04",
   "status": "proved",
   "theorems": [
    "C04_trust_region_loop_bounded",
    "C04_solve_terminates",
    "C04_needs_shrinking_refuted"
   ],
   "note": "Over the reals, 0 <= shrink < 1 and min box > 0. The \u2026_refuted theorem shows the condition on the ratio is needed."
  },
  {
   "property": "C05",
   "status": "partial",
   "theorems": [
    "C05_max_iterations_bounds_qps_refuted",
    "C05_max_iterations_partial",
    "C05_max_iterations_excess_partial"
   ],
   "note": "Refuted as stated (limit only tested between convexifications: 4 QPs with max_iterations = 1). Partial: every convexification starts below the limit and one trust-region loop is bounded."
  },
  {
   "property": "C06",
   "status": "partial",
   "theorems": [
    "C06_callback_stops_refuted",
    "C06_final_status_never_stopped",
    "C06_callback_stops_partial"
   ],
   "note": "Refuted as stated: the solver continues and ends with another status; kStoppedByCallback is never a final status. Partial: the step is dropped and the trust-region loop left."
  },
  {
   "property": "C07",
   "status": "partial",
   "theorems": [
    "C07_qp_failure_reported_refuted",
    "C07_qp_failure_partial"
   ],
   "note": "Refuted as stated: the final status is kPenaltyIterationLimit (or kConverged). Partial: variables untouched, at most max_qp_solver_failures+1 calls per loop."
  },
  {
   "property": "C08",
   "status": "proved",
   "theorems": [
    "C08_penalty_rule",
    "C08_penalty_grows",
    "C08_penalty_count",
    "C08_violation_at_tolerance_grows_refuted"
   ],
   "note": "Over the reals. Side finding: a violation equal to the tolerance blocks convergence but no coefficient grows (\u2026_refuted)."
  },
  {
   "property": "C09",
   "status": "partial",
   "theorems": [
    "C09_converged_feasible_partial",
    "C09_converged_feasible_refuted",
    "C09_nan_violation_refuted"
   ],
   "note": "Refuted as stated: with the time limit already exceeded OPT_CONVERGED is returned before any evaluation, and a binary64 NaN violation is ignored by vecMax. Partial: from initialize(), if anything was evaluated then every violation at x is below the tolerance (ordered number types)."
  },
  {
   "property": "C10",
   "status": "partial",
   "theorems": [
    "C10_values_of_x_partial",
    "C10_values_of_x_refuted"
   ],
   "note": "Proved for every run that starts from initialize(). Refuted for a second optimize() without initialize(): x is projected but the stored costs are kept."
  },
  {
   "property": "C11",
   "status": "proved",
   "theorems": [
    "C11_merit_monotone",
    "C11_sufficient_decrease"
   ],
   "note": "Over the reals: non-increasing merit chain starting from the merit of the projected start point, plus sufficient decrease of each accepted step."
  },
  {
   "property": "C12",
   "status": "proved",
   "theorems": [
    "C12_terminates",
    "C12_no_assertion",
    "C12_convexifications",
    "C12_penalty_count",
    "C12_failures_per_loop",
    "C12_all_failures_reported_refuted"
   ],
   "note": "Termination over the reals (0 <= shrink < 1, min box > 0), no assertion failure for well-sized problems, bounds on convexifications, penalty changes and failed QPs. Side finding (\u2026_refuted): with a larger failure limit OPT_CONVERGED is reported although every QP failed."
  },
  {
   "property": "C13",
   "status": "proved",
   "theorems": [
    "C13_ifopt_trust_region",
    "C13_ifopt_resize",
    "C13_sco_trust_box",
    "C13_sqp_trust_box",
    "C13_qp_trust_region",
    "C13_qp_resize"
   ],
   "note": "Over the reals; the sco optimizer and both trajopt_sqp QP problems."
  },
  {
   "property": "C14",
   "status": "partial",
   "theorems": [
    "C14_evaluation",
    "C14_convexify_partial",
    "C14_same_numbers_refuted",
    "C14_bounds_partial",
    "C14_lost_bounds_refuted"
   ],
   "note": "Evaluation loops: proved for any schedule. Convexification: proved up to a renaming of the added variables; equality of the numbering is refuted. Bounds of the added variables: proved when no push_back overlaps; refuted otherwise (setVarBounds runs outside the mutex). Terms are pure functions in the model."
  },
  {
   "property": "C15",
   "status": "proved",
   "theorems": [
    "C15_ifopt_slack_penalty",
    "C15_ifopt_merit",
    "C15_slack_penalty"
   ],
   "note": "TrajOptQPProblem and IfoptQPProblem (which ignores the coefficients of its sets), any reachable state with consistent sets; the merit coefficient of set k is number filled(k) of the vector, see C20."
  },
  {
   "property": "C16",
   "status": "partial",
   "theorems": [
    "C16_ifopt_violations",
    "C16_touches_refuted",
    "C16_convex_violations",
    "C16_touches_partial"
   ],
   "note": "Refuted: Jacobian entries below 1e-7 are dropped from the matrix but not from the constant. Proved: the evaluation is the linearisation, within 1e-7 times the sum of |x| over the Jacobian entries at the current point, exact without small entries. IfoptQPProblem: exact at the current point without any condition."
  },
  {
   "property": "C17",
   "status": "proved",
   "theorems": [
    "C17_square"
   ],
   "note": "Over the reals, non-negative weights."
  },
  {
   "property": "C18",
   "status": "partial",
   "theorems": [
    "C18_empty_hessian_refuted",
    "C18_one_variable_refuted",
    "C18_partial"
   ],
   "note": "Refuted for an empty Hessian (the linear part is dropped) and for a single variable (the 1x1 Hessian is taken for the row encoding). Proved otherwise: value exact, and second-order expansion exact for symmetric Hessians."
  },
  {
   "property": "C19",
   "status": "proved",
   "theorems": [
    "C19_exact_at_x",
    "C19_exact_everywhere"
   ],
   "note": "Over the reals."
  },
  {
   "property": "C20",
   "status": "partial",
   "theorems": [
    "C20_merit_by_set_refuted",
    "C20_merit_by_set_partial"
   ],
   "note": "Refuted when a set without rows precedes (the index is not advanced). Proved when no set is empty; C15 gives the general value."
  },
  {
   "property": "C21",
   "status": "partial",
   "theorems": [
    "C21_ifopt_setup_again",
    "C21_exact_unchanged",
    "C21_setup_again_refuted"
   ],
   "note": "Exact costs and violations unchanged; the QP built after a second setup() is refuted: static sets are lost and row bounds stay unwritten. IfoptQPProblem: setup() depends only on the sets and the values."
  },
  {
   "property": "C22",
   "status": "partial",
   "theorems": [
    "C22_unit_weights_partial",
    "C22_weights_refuted",
    "C22_convex_penalties_zero"
   ],
   "note": "Refuted: exact penalties ignore the coefficients, and evaluateConvexCosts is zero at every QP-feasible point (proved in general). Proved with unit coefficients."
  },
  {
   "property": "C23",
   "status": "proved",
   "theorems": [
    "C23_projection",
    "C23_size"
   ],
   "note": "Over the reals; bounds that isFinite rejects are absent bounds."
  },
  {
   "property": "C24",
   "status": "proved",
   "theorems": [
    "C24_errors"
   ],
   "note": "Over the reals."
  },
  {
   "property": "C25",
   "status": "proved",
   "theorems": [
    "C25_stacking",
    "C25_blocks",
    "C25_cost_coefficients_refuted"
   ],
   "note": "Any number and size of components whose results have getRows() rows. Side finding (\u2026_refuted): cost terms report one row but the wrapped constraint's number of coefficients."
  },
  {
   "property": "C26",
   "status": "partial",
   "theorems": [
    "C26_refuted",
    "C26_partial",
    "C26_sum_mode"
   ],
   "note": "Refuted: the problem stacks its costs and returns the first one. Proved for at most one cost; the sum-to-scalar mode would give the sum."
  },
  {
   "property": "C27",
   "status": "proved",
   "theorems": [
    "C27_layout",
    "C27_unique_owner",
    "C27_set_get",
    "C27_empty_variable_refuted",
    "C27_get_var",
    "C27_throws"
   ],
   "note": "Any sequence of addVar calls that does not throw. Setting values needs every variable to have at least one element; with an empty one setVariables fails an assertion (\u2026_refuted)."
  },
  {
   "property": "C28",
   "status": "proved",
   "theorems": [
    "C28_value",
    "C28_squared_gradient",
    "C28_absolute_gradient_partial",
    "C28_absolute_gradient_refuted"
   ],
   "note": "Value, sign, zero set and the squared cost's gradient for any differentiable constraint. The absolute cost's gradient is proved away from kinks and refuted for errors below 1e-12."
  },
  {
   "property": "C29",
   "status": "partial",
   "theorems": [
    "C29_differences",
    "C29_rows",
    "C29_throws",
    "C29_order_refuted"
   ],
   "note": "Proved for positions given in the order of the variable set: values, coefficients, bounds, exact Jacobian, exceptions. Refuted for other orders, which the constructor accepts: getJacobian() then trips an Eigen assertion."
  },
  {
   "property": "C30",
   "status": "partial",
   "theorems": [
    "C30_bounds_partial",
    "C30_split_refuted",
    "C30_targets",
    "C30_same_rows"
   ],
   "note": "Proved for one coefficient per joint, and for none or one when ranges are not split. Refuted when ranges are split: the constructor reads the caller's vector, not the expanded one."
  },
  {
   "property": "C31",
   "status": "proved",
   "theorems": [
    "C31_constructors",
    "C31_affine",
    "C31_quadratic",
    "C31_well_formed"
   ],
   "note": "Over the reals, for well-formed expressions (parallel vectors of equal length); aliased calls such as exprInc(a,a) are not modelled."
  },
  {
   "property": "C32",
   "status": "proved",
   "theorems": [
    "C32_product_and_square"
   ],
   "note": "Over the reals, for well-formed expressions."
  },
  {
   "property": "C33",
   "status": "proved",
   "theorems": [
    "C33_cleanup"
   ],
   "note": "Over the reals."
  },
  {
   "property": "C34",
   "status": "partial",
   "theorems": [
    "C34_affine_vector",
    "C34_quadratic_objective",
    "C34_constraint_matrix",
    "C34_osqp_arrays",
    "C34_quadratic_range_refuted"
   ],
   "note": "Proved for the affine vector, the quadratic objective, the constraint matrix and the OSQP arrays. Refuted for the out-of-range part: variables of quadratic terms are never checked (undefined behaviour in setFromTriplets)."
  },
  {
   "property": "C35",
   "status": "proved",
   "theorems": [
    "C35_terms_exact"
   ],
   "note": "Over the reals, for every sequence of operations on an empty objective (addMax excluded, see C36)."
  },
  {
   "property": "C36",
   "status": "partial",
   "theorems": [
    "C36_refuted",
    "C36_partial"
   ],
   "note": "Refuted: addMax neither adds to the objective nor records its variable for removal. Partial: the constraints it adds are right, and every other operation cleans up."
  },
  {
   "property": "C37",
   "status": "partial",
   "theorems": [
    "C37_refuted",
    "C37_partial"
   ],
   "note": "Refuted: the lower bound is ignored. Partial: the upper bound minus delta is respected, interior points are unchanged."
  },
  {
   "property": "C38",
   "status": "proved",
   "theorems": [
    "C38_violations",
    "C38_violation_amounts",
    "C38_nan_refuted"
   ],
   "note": "Over the reals. Side finding (\u2026_refuted): in binary64 a NaN inequality value counts as satisfied."
  },
  {
   "property": "C39",
   "status": "partial",
   "theorems": [
    "C39_cost_convex",
    "C39_cleanup_error",
    "C39_cleanup_refuted",
    "C39_negative_weight_refuted",
    "C39_constraint_convex"
   ],
   "note": "Proved for non-negative weights (any weights for SQUARED and for constraints) when no non-zero Jacobian entry is below 1e-7, plus the exact cleanup error bound; refuted for negative weights and for small entries."
  },
  {
   "property": "C40",
   "status": "proved",
   "theorems": [
    "C40_update",
    "C40_meaning",
    "C40_stale_refuted"
   ],
   "note": "Any interleaving of calls naming existing variables and constraints. Side finding (\u2026_refuted): a Var kept after removal still carries its old index, so bounds and expressions set through it hit another variable."
  },
  {
   "property": "C41",
   "status": "proved",
   "theorems": [
    "C41_osqp",
    "C41_qpoases"
   ],
   "note": "OSQP and qpOASES; constants of constraints below the solver's infinity."
  },
  {
   "property": "C42",
   "status": "partial",
   "theorems": [
    "C42_reuse_partial",
    "C42_fresh",
    "C42_failed_keeps",
    "C42_prefix_refuted",
    "C42_failed_attempt_refuted"
   ],
   "note": "Refuted: the sparsity test compares bytes rather than elements, and a failed setup leaves the pattern of an attempt that never reached the workspace. Proved when indices differ within the compared bytes and the pattern remembered is the workspace's."
  },
  {
   "property": "C43",
   "status": "partial",
   "theorems": [
    "C43_arrays",
    "C43_replace_partial",
    "C43_affine_refuted"
   ],
   "note": "Refuted: an affine objective after a quadratic one keeps the quadratic terms. Proved: quadratic objectives replace everything, affine ones if no quadratic terms were set; the arrays given to OSQP and qpOASES are the stored objective."
  },
  {
   "property": "C44",
   "status": "proved",
   "theorems": [
    "C44_bpmpd",
    "C44_simplify2"
   ],
   "note": "Over histories of API calls whose expressions mention remaining variables; BPMPD's reading of its arrays (row slack, infinity, lower triangle) is an assumption stated in BpmpdProps.v."
  },
  {
   "property": "C45",
   "status": "partial",
   "theorems": [
    "C45_problem",
    "C45_solution",
    "C45_session",
    "C45_short_read_refuted"
   ],
   "note": "Proved when the pipes deliver whole objects; refuted for short reads with assertions compiled out."
  },
  {
   "property": "C46",
   "status": "partial",
   "theorems": [
    "C46_round_trip",
    "C46_names_partial",
    "C46_env_refuted",
    "C46_create"
   ],
   "note": "Proved: name/value round trip and creation. Refuted: MODEL_NAMES_ order differs from the enumeration, so TRAJOPT_CONVEX_SOLVER selects another solver."
  },
  {
   "property": "C47",
   "status": "proved",
   "theorems": [
    "C47_get_returns_last_put",
    "C47_retention",
    "C47_usage_pattern"
   ],
   "note": "Any key type with decidable equality, any capacity."
  },
  {
   "property": "C48",
   "status": "proved",
   "theorems": [
    "C48_consistent",
    "C48_held_hit_pointer_refuted"
   ],
   "note": "Any history. Side finding (\u2026_refuted): a pointer returned by a hit is handed out again and overwritten after enough further misses."
  },
  {
   "property": "C49",
   "status": "partial",
   "theorems": [
    "C49_refuted",
    "C49_double_refuted",
    "C49_partial"
   ],
   "note": "Refuted: 'no subshape' (-1) shares its key with subshape 0, and above 2^53 rounding makes proper ids collide (binary64 witness). Partial: injective in exact arithmetic among proper ids and among ids without subshape."
  },
  {
   "property": "C50",
   "status": "partial",
   "theorems": [
    "C50_last_write_wins",
    "C50_zero_set_partial",
    "C50_zero_set_refuted"
   ],
   "note": "Last write wins and symmetry proved; the zero set is refuted (coefficients up to 1e-6 count as zero) and characterised exactly."
  },
  {
   "property": "C51",
   "status": "proved",
   "theorems": [
    "C51_slots",
    "C51_getters",
    "C51_order_independent"
   ],
   "note": "Over the reals, errors above lowest()/2."
  },
  {
   "property": "C52",
   "status": "proved",
   "theorems": [
    "C52_continuous",
    "C52_discrete"
   ],
   "note": "Over the reals with exact square root and ceiling."
  },
  {
   "property": "C53",
   "status": "proved",
   "theorems": [
    "C53_weighted_average",
    "C53_boundary_refuted"
   ],
   "note": "Over the reals. Side finding (\u2026_refuted): a contact exactly at margin + buffer passes the filter but violates the assertion in the average."
  },
  {
   "property": "C54",
   "status": "partial",
   "theorems": [
    "C54_continuous",
    "C54_discrete_refuted",
    "C54_discrete_partial"
   ],
   "note": "Proved for the continuous evaluators for any order std::sort may return; refuted for the discrete evaluator, which ranks by link A only; proved there when link A moves in every contact."
  },
  {
   "property": "C55",
   "status": "partial",
   "theorems": [
    "C55_at",
    "C55_at_throws",
    "C55_column_refuted",
    "C55_block",
    "C55_vectors",
    "C55_top_rows",
    "C55_middle_rows_partial",
    "C55_bottom_rows_throws",
    "C55_middle_rows_refuted",
    "C55_bottom_rows_refuted"
   ],
   "note": "Proved: element access, blocks, rows, columns and topRows. Refuted: middleRows and bottomRows throw whenever they do not start at row 0, and the column index is not checked."
  },
  {
   "property": "C56",
   "status": "partial",
   "theorems": [
    "C56_search_running",
    "C56_search",
    "C56_search_refuted",
    "C56_comment_refuted",
    "C56_interp",
    "C56_knots",
    "C56_between",
    "C56_empty_refuted"
   ],
   "note": "Proved for ascending queries (as interp2d needs). Refuted for unsorted queries, for the comment on searchsorted, and for an empty table."
  },
  {
   "property": "C57",
   "status": "partial",
   "theorems": [
    "C57_get",
    "C57_update",
    "C57_inverse",
    "C57_repeated_refuted",
    "C57_refused_update_refuted",
    "C57_superset",
    "C57_superset_refuted"
   ],
   "note": "Proved for distinct names. Refuted: repeated names lose values, a refused update leaves a mixed output, and isSuperset rejects equal sets."
  },
  {
   "property": "C58",
   "status": "proved",
   "theorems": [
    "C58_variables",
    "C58_create",
    "C58_get_traj",
    "C58_arrays"
   ],
   "note": "TrajOptProb's variables, getTraj and AddVarArrays; any element type."
  },
  {
   "property": "C59",
   "status": "proved",
   "theorems": [
    "C59_eq_costs",
    "C59_ineq_costs"
   ],
   "note": "Over the reals; coefficient, target and tolerance vectors have one entry per joint."
  },
  {
   "property": "C60",
   "status": "partial",
   "theorems": [
    "C60_partial",
    "C60_refuted"
   ],
   "note": "Refuted: value() squares the deviation, the linearisation does not; proved that value() is coefficient times the square of the unweighted linearisation, so both vanish together."
  },
  {
   "property": "C61",
   "status": "partial",
   "theorems": [
    "C61_ranges",
    "C61_constructs",
    "C61_refuted"
   ],
   "note": "Exact characterisation of the ranges for which hatch() does not throw. Refuted: acceleration over two steps, jerk over one (too near the end) to three steps, and every negative first_step."
  },
  {
   "property": "C62",
   "status": "partial",
   "theorems": [
    "C62_fixed",
    "C62_rejected_partial",
    "C62_refuted"
   ],
   "note": "Proved for valid entries (both evaluation orders) and that invalid steps and joint indices never give a problem. Refuted: with time the joint index n_dof is accepted and fixes the time variables."
  },
  {
   "property": "C63",
   "status": "partial",
   "theorems": [
    "C63_partial",
    "C63_both_fixed",
    "C63_refuted",
    "C63_discrete",
    "C63_accepts"
   ],
   "note": "Proved for the discrete evaluator, user-defined terms, and when no two adjacent steps are fixed. Refuted: with both ends fixed the end step is treated as free (and the throw is unreachable)."
  },
  {
   "property": "C64",
   "status": "partial",
   "theorems": [
    "C64_partial",
    "C64_refuted",
    "C64_unread"
   ],
   "note": "Refuted for safety_margin_buffer of collision terms; proved for all other members. Three members are accepted but never read."
  },
  {
   "property": "C65",
   "status": "proved",
   "theorems": [
    "C65_accepts",
    "C65_throws"
   ],
   "note": "Any number type."
  },
  {
   "property": "C66",
   "status": "proved",
   "theorems": [
    "C66_velocity_value",
    "C66_defined",
    "C66_velocity",
    "C66_time"
   ],
   "note": "Over the reals; every number of steps; non-zero inverse time variables where the code divides by them."
  },
  {
   "property": "C67",
   "status": "partial",
   "theorems": [
    "C67_partial",
    "C67_repeat",
    "C67_refuted",
    "C67_zero_hash_refuted"
   ],
   "note": "Proved for histories without hash collisions and with non-zero hashes; refuted in general for any 64-bit hash (pigeonhole), and a zero hash on a fresh cache dereferences null pointers."
  },
  {
   "property": "C68",
   "status": "proved",
   "theorems": [
    "C68_single_step",
    "C68_one_free",
    "C68_both_free",
    "C68_common_displacement",
    "C68_misaligned_refuted"
   ],
   "note": "Exact for the single-time-step terms; within 2e-7 times the sum of |joint values| for the continuous ones, where cleanupAff drops small coefficients. Contacts without a moving link are excluded; with them (and assertions off) the expressions are misaligned (\u2026_refuted)."
  },
  {
   "property": "C69",
   "status": "partial",
   "theorems": [
    "C69_partial",
    "C69_gradient_partial",
    "C69_ndebug",
    "C69_refuted"
   ],
   "note": "Proved for builds with assertions, including that the subset gradient is the gradient of the subset error. Refuted under NDEBUG: the call filling the values sits inside assert()."
  },
  {
   "property": "C70",
   "status": "partial",
   "theorems": [
    "C70_nan_step_rejected_refuted"
   ],
   "note": "Refuted as stated: binary64 witness in which a NaN merit is accepted."
  },
  {
   "property": "C71",
   "status": "partial",
   "theorems": [
    "C71_reinitialize_refuted"
   ],
   "note": "Refuted: the trust box size stored in the parameters survives initialize()."
  },
  {
   "property": "C72",
   "status": "proved",
   "theorems": [
    "C72_func_cost_model",
    "C72_numerical_derivatives",
    "C72_forward_jacobian"
   ],
   "note": "Over the reals; the full-Hessian branch of CostFromFunc::convex is C144."
  },
  {
   "property": "C73",
   "status": "proved",
   "theorems": [
    "C73_penalties_exact"
   ],
   "note": "Over the reals."
  },
  {
   "property": "C74",
   "status": "proved",
   "theorems": [
    "C74_limits_are_real",
    "C74_time_limit_honoured"
   ],
   "note": ""
  },
  {
   "property": "C75",
   "status": "proved",
   "theorems": [
    "C75_box_follows_history",
    "C75_coefficients_follow_history"
   ],
   "note": ""
  },
  {
   "property": "C76",
   "status": "proved",
   "theorems": [
    "C76_box_follows_history",
    "C76_penalty_rule"
   ],
   "note": "Any number type, any problem."
  },
  {
   "property": "C77",
   "status": "proved",
   "theorems": [
    "C77_limits_are_real"
   ],
   "note": "For a run after initialize(); any number type, any problem."
  },
  {
   "property": "C78",
   "status": "partial",
   "theorems": [
    "C78_filter_spec",
    "C78_old_filter_agrees_refuted",
    "C78_old_filter_agrees_partial"
   ],
   "note": "The filter is characterised; agreement with the older filter is refuted when one end is fixed and proved when none is."
  },
  {
   "property": "C79",
   "status": "partial",
   "theorems": [
    "C79_partial",
    "C79_refuted"
   ],
   "note": "Refuted when both links move (factor 1/2); proved when exactly one moves."
  },
  {
   "property": "C80",
   "status": "proved",
   "theorems": [
    "C80_grouping"
   ],
   "note": "Any key and gradient function."
  },
  {
   "property": "C81",
   "status": "partial",
   "theorems": [
    "C81_rows_in_use",
    "C81_refuted"
   ],
   "note": "Rows in use proved; determinacy refuted (unused rows keep old coefficients)."
  },
  {
   "property": "C82",
   "status": "proved",
   "theorems": [
    "C82_columns",
    "C82_affine"
   ],
   "note": "Over the reals."
  },
  {
   "property": "C83",
   "status": "proved",
   "theorems": [
    "C83_interpolate"
   ],
   "note": "Over the reals."
  },
  {
   "property": "C84",
   "status": "proved",
   "theorems": [
    "C84_gauss_newton"
   ],
   "note": "Over the reals."
  },
  {
   "property": "C85",
   "status": "partial",
   "theorems": [
    "C85_defined_partial",
    "C85_defined_refuted"
   ],
   "note": "Refuted when all squared costs have zero rows; proved otherwise."
  },
  {
   "property": "C86",
   "status": "proved",
   "theorems": [
    "C86_convex_costs"
   ],
   "note": "Over the reals; the common change is that of the sum over all sets, within 1e-7 times the square of the step's 1-norm (Hessian entries below 1e-7 are dropped)."
  },
  {
   "property": "C87",
   "status": "partial",
   "theorems": [
    "C87_total_partial",
    "C87_two_costs_refuted",
    "C87_weights_refuted",
    "C87_absolute_refuted"
   ],
   "note": "Proved for one squared cost with unit coefficients. Refuted for two costs (the change is counted twice and getTotalExactCost is only the first cost), for coefficients other than one (the exact cost ignores them) and for absolute costs (convexified as squares)."
  },
  {
   "property": "C88",
   "status": "partial",
   "theorems": [
    "C88_rejected_cost_refuted",
    "C88_accepted_cost_partial"
   ],
   "note": "Refuted: a rejected hinge cost stays in the QP objective. Proved for the other penalty types."
  },
  {
   "property": "C89",
   "status": "partial",
   "theorems": [
    "C89_rows",
    "C89_violation",
    "C89_order_refuted"
   ],
   "note": "Violation proved equal at every point; the order of rows is refuted (value() blocks upper then lower per step, the linearisation interleaves)."
  },
  {
   "property": "C90",
   "status": "partial",
   "theorems": [
    "C90_accepts",
    "C90_partial",
    "C90_last_step",
    "C90_refuted"
   ],
   "note": "Proved for last_step < n_steps-1; every accepted range ending at the last step throws."
  },
  {
   "property": "C91",
   "status": "partial",
   "theorems": [
    "C91_partial",
    "C91_refuted"
   ],
   "note": "Proved with time. Refuted without: the last joint is used as time."
  },
  {
   "property": "C92",
   "status": "proved",
   "theorems": [
    "C92_interpolated",
    "C92_single_step",
    "C92_shape",
    "C92_others"
   ],
   "note": "Over the reals; Eigen's LinSpaced is modelled from its documentation."
  },
  {
   "property": "C93",
   "status": "proved",
   "theorems": [
    "C93_accepts"
   ],
   "note": "All lists of terms and flags."
  },
  {
   "property": "C94",
   "status": "partial",
   "theorems": [
    "C94_parameters",
    "C94_adds",
    "C94_cost",
    "C94_time",
    "C94_both_refuted"
   ],
   "note": "Proved for types cost, constraint, and velocity with time. Refuted: a term of type cost|constraint|time adds nothing, and one of type cost|constraint adds only the cost."
  },
  {
   "property": "C95",
   "status": "partial",
   "theorems": [
    "C95_acceleration",
    "C95_jerk",
    "C95_value",
    "C95_refuted"
   ],
   "note": "The Jacobians are exact. Refuted: the errors multiply by instead of divide by the elapsed time (the variables are inverse times)."
  },
  {
   "property": "C96",
   "status": "proved",
   "theorems": [
    "C96_value",
    "C96_jacobian",
    "C96_cost"
   ],
   "note": "The kinematic Jacobian's exactness is a hypothesis on a parameter."
  },
  {
   "property": "C97",
   "status": "partial",
   "theorems": [
    "C97_selection",
    "C97_partial",
    "C97_refuted",
    "C97_dynamic"
   ],
   "note": "Proved for selection, and for the Jacobian when one frame is static; refuted when both frames move. Forward kinematics and pose errors are parameters with contracts as hypotheses."
  },
  {
   "property": "C98",
   "status": "partial",
   "theorems": [
    "C98_accepts",
    "C98_partial",
    "C98_refuted"
   ],
   "note": "Proved when the two tolerance vectors are not almost equal; equal or nearly equal (1e-6) tolerances, even non-zero ones, are ignored (refuted)."
  },
  {
   "property": "C99",
   "status": "partial",
   "theorems": [
    "C99_constraint",
    "C99_gradient",
    "C99_refuted",
    "C99_cost_partial",
    "C99_difference"
   ],
   "note": "Constraint and gradient proved; the derivative of the singular value is derived from the decomposition, and the error of the finite difference is bounded. Refuted for the cost: its absolute value penalises configurations far from a singularity."
  },
  {
   "property": "C100",
   "status": "partial",
   "theorems": [
    "C100_limit",
    "C100_cost",
    "C100_unsatisfiable",
    "C100_refuted"
   ],
   "note": "Proved for |limit| >= 1e-5. Refuted for the default limit 0, where the constraint demands total time 0, which no positive times meet."
  },
  {
   "property": "C101",
   "status": "proved",
   "theorems": [
    "C101_accepts",
    "C101_rows",
    "C101_bounds"
   ],
   "note": "Over the reals; six-component transform errors are a hypothesis on a parameter."
  },
  {
   "property": "C102",
   "status": "partial",
   "theorems": [
    "C102_partial",
    "C102_analytic",
    "C102_analytic_refuted"
   ],
   "note": "Proved for numeric differentiation (the default) and for two active frames, against componentwise error differences. Refuted for the analytic variant, which asserts."
  },
  {
   "property": "C103",
   "status": "partial",
   "theorems": [
    "C103_closest_iff",
    "C103_partial",
    "C103_length_refuted",
    "C103_behind_refuted",
    "C103_direction_refuted",
    "C103_frame_refuted",
    "C103_slerp_refuted"
   ],
   "note": "An exact criterion is proved, and the property for segments of length one with the source not behind the start. Refuted in general by five witnesses."
  },
  {
   "property": "C104",
   "status": "partial",
   "theorems": [
    "C104_six",
    "C104_rows",
    "C104_partial",
    "C104_fewer_refuted",
    "C104_order_refuted"
   ],
   "note": "Proved for the default component order. Refuted for fewer or reordered components."
  },
  {
   "property": "C105",
   "status": "partial",
   "theorems": [
    "C105_accepts",
    "C105_set_bounds_refuted"
   ],
   "note": "Construction proved; setting the reported bounds is refuted for fewer than six components."
  },
  {
   "property": "C106",
   "status": "partial",
   "theorems": [
    "C106_nearest",
    "C106_zero",
    "C106_jacobian",
    "C106_empty_refuted"
   ],
   "note": "Proved when there is a solution (the Jacobian where the closest is unique). Refuted without solutions when assertions are off."
  },
  {
   "property": "C107",
   "status": "proved",
   "theorems": [
    "C107_discrete",
    "C107_evaluator"
   ],
   "note": "Evaluator and gradients are parameters; the sets are those of any discrete evaluator, every contact having a moving link in the joint group. Real numbers; the step is any number (1e-8 in the code)."
  },
  {
   "property": "C108",
   "status": "partial",
   "theorems": [
    "C108_first_partial",
    "C108_second",
    "C108_second_refuted",
    "C108_throws_refuted"
   ],
   "note": "Proved for the values and the columns of the first state; what the columns of the second state hold is proved exactly (C108_second). Refuted for the second state, whose perturbed value is passed as the first state, and for sets without an error at the free end, which throw instead of counting as minus the buffer."
  },
  {
   "property": "C109",
   "status": "partial",
   "theorems": [
    "C109_accepts",
    "C109_null_refuted",
    "C109_set_bounds_refuted"
   ],
   "note": "What is accepted is proved exactly. Refuted for a single null pointer, which is dereferenced, and for setBounds on a constraint with several rows."
  },
  {
   "property": "C110",
   "status": "partial",
   "theorems": [
    "C110_run",
    "C110_problem",
    "C110_reuse_refuted",
    "C110_ignored_refuted",
    "C110_status_refuted"
   ],
   "note": "Proved for a new solver, and for a used one when the first convexification changes the sizes of the problem (any numbers, C110_run), provided updateBounds succeeds in the trust region loop; what a convexified problem offers meets the hypotheses (C110_problem). Refuted when a used solver gets an already convexified problem of another size, when updateBounds fails, and for the status after a failed solve."
  },
  {
   "property": "C111",
   "status": "partial",
   "theorems": [
    "C111_objective",
    "C111_bounds",
    "C111_problem",
    "C111_gradient_refuted"
   ],
   "note": "Bounds and Hessian exactly; the objective up to 1e-7 per unit of the point, exactly if no gradient entry is below 1e-7 (refuted otherwise)."
  },
  {
   "property": "C112",
   "status": "partial",
   "theorems": [
    "C112_start",
    "C112_feasible_partial",
    "C112_upper_refuted",
    "C112_range_refuted",
    "C112_alignment_refuted"
   ],
   "note": "Variables and non-negative slacks proved when there are no more constraint sets than rows; feasibility for single-row sets without penalty costs and without rows above their upper bounds. Refuted otherwise by three witnesses."
  },
  {
   "property": "C113",
   "status": "partial",
   "theorems": [
    "C113_calls",
    "C113_diff",
    "C113_history",
    "C113_libraries",
    "C113_stateless",
    "C113_stateless_old_refuted"
   ],
   "note": "The states checked are proved; that a call leaves nothing behind is proved for the newer evaluators and refuted for the older discrete one. The contact test is any function of the poses of the links, and the kinematics must know all moving links. The libraries agree unless the type is CONTINUOUS (C116). That the states are those wanted is C52."
  },
  {
   "property": "C114",
   "status": "partial",
   "theorems": [
    "C114_discrete",
    "C114_cast",
    "C114_single",
    "C114_tests",
    "C114_whole",
    "C114_times",
    "C114_end_refuted",
    "C114_start"
   ],
   "note": "Exact for discrete states, for one cast and for a subdivided cast. Refuted for a contact at the fixed end of a subdivided cast. addInterpolatedCollisionResults belongs to tesseract, whose source is not in /repo; its model is recollected and could not be checked against it."
  },
  {
   "property": "C115",
   "status": "partial",
   "theorems": [
    "C115_discrete",
    "C115_single",
    "C115_cast",
    "C115_cast_refuted",
    "C115_discrete_refuted",
    "C115_recorded"
   ],
   "note": "Proved for the newer evaluators at discrete states (from the call to the gradient, C115_recorded), for single states, and for the older evaluators at one cast (derivative of the point of the swept hull). Refuted for the newer evaluators at casts and the older ones at discrete states."
  },
  {
   "property": "C116",
   "status": "partial",
   "theorems": [
    "C116_types",
    "C116_ends",
    "C116_hatch",
    "C116_continuous",
    "C116_continuous_refuted"
   ],
   "note": "Proved for the types accepted and for hatch; one cast for CONTINUOUS proved for trajopt_ifopt, refuted for trajopt."
  },
  {
   "property": "C117",
   "status": "partial",
   "theorems": [
    "C117_typed",
    "C117_int",
    "C117_types_refuted",
    "C117_refused",
    "C117_total"
   ],
   "note": "Proved for values of the announced type, for ranges of integers, list sizes and texts, and that reading any document gives a problem or throws. Refuted for null, fractions, scalars where a list is expected and objects where a list is expected. What jsoncpp does is recollected."
  },
  {
   "property": "C118",
   "status": "partial",
   "theorems": [
    "C118_basic",
    "C118_required",
    "C118_opt",
    "C118_init",
    "C118_init_refused",
    "C118_unknown",
    "C118_unknown_refuted",
    "C118_limits_refuted",
    "C118_solver_refuted",
    "C118_optimizer",
    "C118_defaults",
    "C118_opt_refuted"
   ],
   "note": "Proved for documents that follow the schema (any order of members, any subset of the optional ones), for required members, wrong sizes and the defaults of opt_info. Refuted: unknown members are ignored, one dt limit alone, the name of the solver, opt_info does not reach the optimizer."
  },
  {
   "property": "C119",
   "status": "partial",
   "theorems": [
    "C119_terms",
    "C119_problem",
    "C119_checks",
    "C119_names",
    "C119_sides",
    "C119_rotation",
    "C119_rotation_refuted",
    "C119_steps_refuted",
    "C119_manip",
    "C119_pairs",
    "C119_shipped_refuted"
   ],
   "note": "Proved for documents that follow the schema, for the checks and names of parameters. Refuted: offsets that are not unit quaternions, steps of pose terms, negative evaluator types, two of the shipped documents."
  },
  {
   "property": "C120",
   "status": "partial",
   "theorems": [
    "C120_yaml",
    "C120_cereal",
    "C120_document",
    "C120_refused",
    "C120_config",
    "C120_config_cereal",
    "C120_members",
    "C120_new",
    "C120_alias_refuted",
    "C120_inplace_refuted"
   ],
   "note": "Proved for YAML and cereal, any order of the tables, and for hand-written documents. Refuted: the announced alias buffer is not read; decode into a used object keeps its old pairs."
  },
  {
   "property": "C121",
   "status": "partial",
   "theorems": [
    "C121_coeffs",
    "C121_meaning",
    "C121_reflexive",
    "C121_config",
    "C121_round_trip",
    "C121_transitive_refuted",
    "C121_redundant_refuted",
    "C121_infinite_refuted"
   ],
   "note": "Proved: exact characterisation, reflexive and symmetric over the reals, round trips compare equal, equal objects give coefficients within tolerance. Refuted: transitivity, redundant pairs, infinite coefficients over doubles."
  },
  {
   "property": "C122",
   "status": "partial",
   "theorems": [
    "C122_rigid",
    "C122_turn",
    "C122_velocity",
    "C122_steps",
    "C122_frames",
    "C122_frames_refuted"
   ],
   "note": "addTwist proved over the reals; the use in the analytic Jacobian is exact for unturned target frames and refuted for turned ones (twist already turned into the target frame, pose not)."
  },
  {
   "property": "C123",
   "status": "partial",
   "theorems": [
    "C123_costs",
    "C123_constraints",
    "C123_run",
    "C123_again_refuted",
    "C123_unopened",
    "C123_unopened_refuted",
    "C123_comma_refuted"
   ],
   "note": "Proved for one call after initialize() with all files opened and names without commas or newlines. Refuted: no heading in later calls, fclose of a null stream, names with commas."
  },
  {
   "property": "C124",
   "status": "partial",
   "theorems": [
    "C124_heading",
    "C124_row",
    "C124_rows",
    "C124_width",
    "C124_links_refuted",
    "C124_glued",
    "C124_glued_refuted",
    "C124_first_refuted"
   ],
   "note": "Exact layout of heading and rows proved. Refuted: more than one link, link names glued to the number before, costs missing in the first call."
  },
  {
   "property": "C125",
   "status": "partial",
   "theorems": [
    "C125_notified",
    "C125_construct",
    "C125_construct_refuted"
   ],
   "note": "Notification proved for observers registered with addObserver(); refuted that the constructor registers: it always throws."
  },
  {
   "property": "C126",
   "status": "partial",
   "theorems": [
    "C126_program",
    "C126_early_refuted",
    "C126_quad_refuted",
    "C126_stale_refuted",
    "C126_removed_refuted",
    "C126_terms_refuted"
   ],
   "note": "Proved for callers who obey stated rules (use after update(), no optimize() between a removal and update()). Refuted without them: early use aborts, quadratic constraints cannot be removed, stale indices after optimize(), removed variables keep an index, failed quadratic terms are lost silently."
  },
  {
   "property": "C127",
   "status": "proved",
   "theorems": [
    "C127_rounds"
   ],
   "note": "For the call pattern of optimize() as stated in GurobiSpec (rounds), with expressions over the problem's variables and those of the pass."
  },
  {
   "property": "C128",
   "status": "proved",
   "theorems": [
    "C128_osqp",
    "C128_qpoases",
    "C128_bpmpd"
   ],
   "note": "Over the reals, given a solver that answers correctly about the arrays it is handed (the contracts osqp_honest, qpoases_honest, bpmpd_honest; that it answers at all, *_able, is only used for the last part). update_workspace off. For qpOASES the last part needs that no SQProblem of the same size is kept (C129_again_refuted)."
  },
  {
   "property": "C129",
   "status": "partial",
   "theorems": [
    "C129_osqp_partial",
    "C129_bpmpd_partial",
    "C129_infeasible_refuted",
    "C129_again_refuted"
   ],
   "note": "Proved for OSQP and BPMPD when the objective is bounded below; for qpOASES it is part of C128. Refuted: dual infeasible problems are reported as CVX_INFEASIBLE, and a failed hot start of qpOASES leaves no iterations for the new start."
  },
  {
   "property": "C130",
   "status": "proved",
   "theorems": [
    "C130_problem",
    "C130_osqp",
    "C130_qpoases",
    "C130_bpmpd"
   ],
   "note": "For the call pattern of optimize() as stated in GurobiSpec (rounds) and solvers meeting the contracts of C128; over the reals, update_workspace off. That a solvable QP is solved is proved for OSQP and BPMPD, and for qpOASES when no SQProblem of the same number of variables is kept."
  },
  {
   "property": "C131",
   "status": "proved",
   "theorems": [
    "C131_osqp",
    "C131_qpoases",
    "C131_bpmpd"
   ],
   "note": "Over the reals, update_workspace off, solvers meeting the contracts of C128; costs with addMax are excluded (see C14). For qpOASES the last part needs that no SQProblem of the same number of variables is kept."
  },
  {
   "property": "C132",
   "status": "proved",
   "theorems": [
    "C132_osqp",
    "C132_qpoases",
    "C132_bpmpd",
    "C132_improvement"
   ],
   "note": "As C131. The improvement is stated for current points within their limits that satisfy the problem's linear constraints."
  },
  {
   "property": "C133",
   "status": "partial",
   "theorems": [
    "C133_no_abort",
    "C133_ends",
    "C133_limits",
    "C133_stationary",
    "C133_convex",
    "C133_linear_refuted"
   ],
   "note": "The last clause is false: C133_linear_refuted. The rest is proved for OSQP with update_workspace off, qpOASES and BPMPD, over the reals, callbacks not touching model or results, and with convex models whose constants are below the library's infinity at the points a run can be at (where getClosestFeasiblePoint puts the start, and points within the limits); the bound of C133_stationary needs a current point within its limits and a positive merit."
  },
  {
   "property": "C134",
   "status": "proved",
   "theorems": [
    "C134_no_abort",
    "C134_ends",
    "C134_reported",
    "C134_limits",
    "C134_stationary",
    "C134_convex"
   ],
   "note": "Over the reals. Assumes that updateBounds in place succeeds (C110_ignored shows what happens otherwise) and that constraint sets are never empty (C20) with coefficients of at least one (C22); the bound includes what thresholds below 1e-7 drop (C111) and the tolerances of the library; problem_ok asks for enough rows for setWarmStart not to read out of range (C112_range)."
  },
  {
   "property": "C135",
   "status": "proved",
   "theorems": [
    "C135_accepted",
    "C135_ends",
    "C135_reported",
    "C135_limits",
    "C135_best",
    "C135_unit",
    "C135_range_refuted"
   ],
   "note": "Over the reals, under the conditions of C134 on the library. Range bounds used as a constraint must be split, as they are by default (C135_range_refuted: otherwise they are accepted but the first convexify() throws); squared costs on bounds want exact values; coefficients of constraints are at least one for the last part (C22)."
  },
  {
   "property": "C136",
   "status": "partial",
   "theorems": [
    "C136_built",
    "C136_ends",
    "C136_limits",
    "C136_reported",
    "C136_converged",
    "C136_best",
    "C136_best_all",
    "C136_tolerance_refuted",
    "C136_fixed_refuted"
   ],
   "note": "Over the reals, without time, and with the conditions of C133 on the library. Refuted: that on OPT_CONVERGED a constraint without tolerances is within cnt_tolerance of its target (the violation is the squared deviation, C136_tolerance_refuted), and that fixed steps stay where they are (C136_fixed_refuted). How close to the best is shown for squared costs without negative coefficients (C136_best, and C136_best_all with equality constraint terms, whose violation is quadratic while its convexification is the absolute deviation: a term for the difference, none within the trust region)."
  },
  {
   "property": "C137",
   "status": "partial",
   "theorems": [
    "C137_constructed",
    "C137_all_terms",
    "C137_start",
    "C137_solved",
    "C137_time",
    "C137_opt_refuted"
   ],
   "note": "Composition of C117-C119, C46 and C136, over the reals; documents whose terms are all joint terms and do not use time. Refuted: that cnt_tolerance of opt_info is obeyed (C137_opt_refuted); the rest of opt_info is ignored as well (C118_opt_refuted)."
  },
  {
   "property": "C138",
   "status": "partial",
   "theorems": [
    "C138_trajectory",
    "C138_nothing_else",
    "C138_pose",
    "C138_contacts",
    "C138_single_refuted",
    "C138_second_refuted",
    "C138_constraint_refuted",
    "C138_timed",
    "C138_timed_refuted",
    "C138_sqp",
    "C138_cart_error",
    "C138_array"
   ],
   "note": "Proved without time variables, for pose terms and for discrete and cast collision costs. Refuted: the arrows of single time step collision costs (end point wrong, second link missing), collision constraints (nothing is drawn), and timed trajectories (PlotProb takes time steps for joint values; PlotCosts gives states with one value too many, C138_timed)."
  },
  {
   "property": "C139",
   "status": "proved",
   "theorems": [
    "C139_built",
    "C139_ends",
    "C139_limits",
    "C139_reported",
    "C139_converged",
    "C139_default_refuted"
   ],
   "note": "Over the reals, with the conditions of C133 on the library and tolerance; limits and numbers of the plan are such that all constants of the linearisations stay below the library's infinity (tplan_ok: the lower limit of the inverse time step is positive by more than the tolerance). C139_default_refuted shows why a converged run may keep the point it started from, outside of the limits."
  },
  {
   "property": "C140",
   "status": "proved",
   "theorems": [
    "C140_constructed",
    "C140_all_terms",
    "C140_start",
    "C140_solved",
    "C140_time",
    "C140_untimed"
   ],
   "note": "The conditions are those of C139 on the plan, the library and the tolerance. Documents with other terms are in C118 and C119 (reading) only."
  },
  {
   "property": "C141",
   "status": "partial",
   "theorems": [
    "C141_volume",
    "C141_volume_affine",
    "C141_volume_flip",
    "C141_volume_join",
    "C141_inside",
    "C141_inside_convex",
    "C141_tetrahedron",
    "C141_inside_volume",
    "C141_clip",
    "C141_centre",
    "C141_centre_inside",
    "C141_diagonal",
    "C141_open_refuted",
    "C141_inside_refuted",
    "C141_centre_refuted",
    "C141_empty_refuted"
   ],
   "note": "Over the reals. Refuted: the volume of a mesh that is not closed depends on points no triangle uses; IsInside of a closed mesh that is not convex can deny a corner of it; the centre of a mesh without surface is NaN; without points ComputeCenter returns an uninitialised vector and ComputeDiagBB returns 0 while GetDiagBB stays 1."
  },
  {
   "property": "C142",
   "status": "partial",
   "theorems": [
    "C142_run",
    "C142_assign",
    "C142_clear",
    "C142_own_refuted",
    "C142_pop_refuted",
    "C142_resize_refuted"
   ],
   "note": "Allocation does not fail. Refuted: PushBack of an element of the array itself reads freed memory when the array grows on the heap; PopBack on an empty array wraps the size round, and the next PushBack is out of bounds; Resize exposes elements that were popped before or never written."
  },
  {
   "property": "C143",
   "status": "partial",
   "theorems": [
    "C143_run",
    "C143_clear",
    "C143_assign",
    "C143_copy",
    "C143_copy_refuted",
    "C143_foreign_refuted",
    "C143_foreign_size_refuted"
   ],
   "note": "Addresses are not used again after delete. Refuted: the copy constructor initialises neither head nor size, so copying a list that has elements is undefined; Delete given an element of another list deletes its own only element, or keeps its elements with a wrong size."
  },
  {
   "property": "C144",
   "status": "partial",
   "theorems": [
    "C144_model",
    "C144_convex",
    "C144_expansion",
    "C144_quadratic",
    "C144_exact_refuted"
   ],
   "note": "Over the reals; the eigenvalue solver is an argument and what it returns is arbitrary except where a theorem says otherwise. Refuted: the model of z^2 at its minimum is not z^2 and promises an improvement, since calcGradHess takes the gradient from forward differences; the branch with the diagonal takes central ones."
  },
  {
   "property": "C145",
   "status": "partial",
   "theorems": [
    "C145_quick",
    "C145_heap",
    "C145_binary",
    "C145_remove",
    "C145_points",
    "C145_nonstrict_refuted"
   ],
   "note": "Indices do not overflow. Refuted: with a comparison that holds for equal elements (not greater, rather than less) quickSort reads past the end of the array."
  },
  {
   "property": "C146",
   "status": "partial",
   "theorems": [
    "C146_product",
    "C146_sum",
    "C146_neg",
    "C146_difference",
    "C146_signed_product",
    "C146_scaled",
    "C146_order",
    "C146_neg_refuted",
    "C146_less_refuted"
   ],
   "note": "Without USE_X86_64_ASM; toScalar is not modelled. Refuted: operator-() negates (int64_t)low, which overflows for the low word 2^63, so -2 times 2^62 is undefined; operator< is the unsigned order, so -1 is not less than 0."
  },
  {
   "property": "C147",
   "status": "partial",
   "theorems": [
    "C147_rational64",
    "C147_new",
    "C147_rational128",
    "C147_overflow_refuted"
   ],
   "note": "Without USE_X86_64_ASM; toScalar is not modelled. Refuted: compare with an integer multiplies in 128 bits and loses the overflow, so that 2^126/2^126 is found greater than 4; two Rational128 with denominators are compared in 256 bits."
  },
  {
   "property": "C148",
   "status": "partial",
   "theorems": [
    "C148_run",
    "C148_destroyed",
    "C148_own",
    "C148_own_refuted",
    "C148_assign_refuted"
   ],
   "note": "Sizes do not overflow int32_t, allocation does not fail, elements have no effects beyond being counted. Refuted: a.push_back(a[i]) on a full array reads memory it has freed; assignment constructs elements over constructed ones, which are never destroyed."
  },
  {
   "property": "C149",
   "status": "partial",
   "theorems": [
    "C149_grid",
    "C149_back",
    "C149_orientation",
    "C149_exact",
    "C149_turn",
    "C149_distinct_refuted",
    "C149_turn_refuted"
   ],
   "note": "The grid over the real numbers (no rounding before the conversion to integers). Refuted: rounding makes different points one, and may turn a positive volume of four points into a negative one."
  },
  {
   "property": "C150",
   "status": "partial",
   "theorems": [
    "C150_run",
    "C150_kept",
    "C150_full",
    "C150_zero_refuted",
    "C150_twice_refuted"
   ],
   "note": "Proved for programs that free and write only what they hold. Refuted without it: an object freed twice has two holders; an array of no places gives an object outside it."
  },
  {
   "property": "C151",
   "status": "proved",
   "theorems": [
    "C151_remove",
    "C151_vertex",
    "C151_pair"
   ],
   "note": "Edges and circles only: faces, stamps and the geometry of merging are left out."
  },
  {
   "property": "C152",
   "status": "partial",
   "theorems": [
    "C152_run",
    "C152_each",
    "C152_self_refuted"
   ],
   "note": "Proved for vertices that take over the faces of others. Refuted for a vertex that takes over its own: the loop never ends."
  },
  {
   "property": "C153",
   "status": "partial",
   "theorems": [
    "C153_part",
    "C153_kept_refuted"
   ],
   "note": "Proved for what is removed and what stays. Refuted: that a vertex named as kept is spared; it is removed too when it is connected to those removed. That shiftFace has disconnected it before is not modelled."
  },
  {
   "property": "C154",
   "status": "proved",
   "theorems": [
    "C154_copy",
    "C154_vertex_edges"
   ],
   "note": "Coordinates left out (C149 has those of the grid)."
  },
  {
   "property": "C155",
   "status": "proved",
   "theorems": [
    "C155_faces"
   ],
   "note": "After the copying of C154."
  },
  {
   "property": "C156",
   "status": "proved",
   "theorems": [
    "C156_parts",
    "C156_distinct",
    "C156_extremes",
    "C156_vertices"
   ],
   "note": "The rest of merge and mergeProjection is not modelled, in particular the case that the nearest vertices of the halves are the same in the projection (lines 873-913)."
  },
  {
   "property": "C157",
   "status": "proved",
   "theorems": [
    "C157_max_angle"
   ],
   "note": "The cotangents are arguments (C149 has their arithmetic); of equal ones, which edge is taken depends on getOrientation, an argument here."
  }
 ]
}