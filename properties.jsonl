{"id": "C01", "title": "SQP 'converged' is only reported at a feasible point", "statement": "If TrustRegionSQPSolver::solve() returns and getStatus() is kConverged, then either the problem reported no constraint violations at all, or every exact constraint violation that the problem reported at the returned best_var_vals is strictly below cnt_tolerance.", "quantifier": "every problem, every QP-solver behaviour (including failures), every sequence of callback answers, every clock, every parameter setting", "why_tests_cant": "the status is decided by the interaction of three nested loops with an external solver, a clock and callbacks; tests only see a handful of benign convergent problems", "anchors": ["trajopt_optimizers/trajopt_sqp/src/trust_region_sqp_solver.cpp: solve, verifySQPSolverConvergence, stepSQPSolver, runTrustRegionLoop"]}
{"id": "C02", "title": "SQP result is coherent with the problem left behind", "statement": "When solve() returns, the decision variables stored in the problem are the first getNumNLPVars() entries of results.best_var_vals, and results.best_costs / best_constraint_violations are the exact costs and violations the problem reported for those variables (not for some rejected trial point).", "quantifier": "every problem, QP-solver behaviour, callback sequence, clock, parameter setting", "why_tests_cant": "a rejected or half-evaluated trial step leaks only on particular reject/accept/failure histories", "anchors": ["trajopt_optimizers/trajopt_sqp/src/trust_region_sqp_solver.cpp: solve, stepSQPSolver, runTrustRegionLoop, solveQPProblem"]}
{"id": "C03", "title": "Accepted SQP steps never make the exact merit worse", "statement": "Between two changes of the penalty coefficients, each accepted step replaces best_exact_merit by a strictly smaller-or-equal value; consequently best_exact_merit is non-increasing over every run of the trust-region iteration with fixed merit coefficients.", "quantifier": "every problem and every sequence of QP answers; merits finite reals; improve_ratio_threshold >= 0", "why_tests_cant": "monotonicity must hold for all trial sequences, tests look at final results only", "anchors": ["trajopt_optimizers/trajopt_sqp/src/trust_region_sqp_solver.cpp: stepSQPSolver, runTrustRegionLoop, solveQPProblem"]}
{"id": "C04", "title": "The trust-region loop always terminates", "statement": "For every problem and QP solver, each trust-region loop performs at most a fixed number of QP solves determined by the current box size, min_trust_box_size and trust_shrink_ratio, and solve() itself returns after finitely many QP solves, provided 0 <= trust_shrink_ratio < 1 and min_trust_box_size > 0.", "quantifier": "every environment and every parameter setting meeting the side conditions", "why_tests_cant": "non-termination appears only for adversarial sequences of QP failures and rejections", "anchors": ["trajopt_optimizers/trajopt_sqp/src/trust_region_sqp_solver.cpp: solve, runTrustRegionLoop"]}
{"id": "C05", "title": "max_iterations bounds the number of QP solves", "statement": "solve() performs at most max_iterations QP solves in total (the parameter is documented as 'Max number of QP calls allowed').", "quantifier": "every problem, QP-solver behaviour and parameter setting", "why_tests_cant": "only histories with many rejected steps inside one trust-region loop reach the limit there", "anchors": ["trajopt_optimizers/trajopt_sqp/src/trust_region_sqp_solver.cpp: solve, runTrustRegionLoop", "trajopt_optimizers/trajopt_sqp/include/trajopt_sqp/types.h: SQPParameters::max_iterations"]}
{"id": "C06", "title": "A callback that returns false stops the solver", "statement": "If a registered callback returns false after a QP solve, no further QP is solved and the final status is kStoppedByCallback.", "quantifier": "every problem and every callback answer sequence", "why_tests_cant": "needs the callback to fire at an arbitrary point of the nested loops", "anchors": ["trajopt_optimizers/trajopt_sqp/src/trust_region_sqp_solver.cpp: callCallbacks, solveQPProblem, solve", "trajopt_optimizers/trajopt_sqp/include/trajopt_sqp/sqp_callback.h"]}
{"id": "C07", "title": "Repeated QP failure is reported", "statement": "If the QP solver fails on every call, solve() ends with status kQPSolveFailed after at most max_qp_solver_failures+1 calls within a trust-region loop, and the variables are left at the initial point.", "quantifier": "every parameter setting, every problem", "why_tests_cant": "requires a QP back end that fails persistently at arbitrary times", "anchors": ["trajopt_optimizers/trajopt_sqp/src/trust_region_sqp_solver.cpp: runTrustRegionLoop, solve"]}
{"id": "C08", "title": "Penalty coefficients only grow, only when infeasible, and boundedly often", "statement": "adjustPenalty never lowers a merit coefficient (ratio >= 1); with inflate_constraints_individually exactly the constraints whose violation exceeds the tolerance are multiplied by merit_coeff_increase_ratio; and the coefficients change at most max_merit_coeff_increases times per solve().", "quantifier": "every violation vector, coefficient vector, history", "why_tests_cant": "depends on every history of violations", "anchors": ["trajopt_optimizers/trajopt_sqp/src/trust_region_sqp_solver.cpp: adjustPenalty, solve, constraintMeritCoeffChanged"]}
{"id": "C09", "title": "sco OPT_CONVERGED is only reported at a feasible point", "statement": "If BasicTrustRegionSQP::optimize() returns OPT_CONVERGED then the problem has no constraints or every constraint violation evaluated at the returned x is below cnt_tolerance.", "quantifier": "every problem, convex-solver behaviour, clock, callback, parameter setting and every earlier history of the optimizer object", "why_tests_cant": "needs time limits and failures at arbitrary program points", "anchors": ["trajopt_sco/src/optimizers.cpp: BasicTrustRegionSQP::optimize"]}
{"id": "C10", "title": "sco result vectors belong to the returned point", "statement": "On return from optimize(), results().cost_vals and results().cnt_viols are the exact costs and violations of results().x whenever they are non-empty, and total_cost is their sum.", "quantifier": "every problem, convex-solver behaviour, clock, parameter setting", "why_tests_cant": "a stale vector survives only on specific accept/reject/fail histories", "anchors": ["trajopt_sco/src/optimizers.cpp: BasicTrustRegionSQP::optimize, BasicTrustRegionSQPResults::update"]}
{"id": "C11", "title": "sco accepted steps never worsen the merit", "statement": "With fixed merit coefficients every step accepted by optimize() has exact merit not larger than the previous iterate; the iteration never moves to a point with a larger merit.", "quantifier": "every problem and solver answer; real-valued merits; improve_ratio_threshold >= 0", "why_tests_cant": "needs all accept/reject histories", "anchors": ["trajopt_sco/src/optimizers.cpp: BasicTrustRegionSQP::optimize"]}
{"id": "C12", "title": "sco optimize() terminates and its budgets bound the convex solves", "statement": "With 0 <= trust_shrink_ratio < 1 and min_trust_box_size > 0, optimize() returns for every convex-solver behaviour; the number of convexifications is at most max_iter * max_merit_coeff_increases and the number of consecutive solver failures tolerated is bounded by max_qp_solver_failures.", "quantifier": "every environment", "why_tests_cant": "adversarial failure sequences are outside any test suite", "anchors": ["trajopt_sco/src/optimizers.cpp: BasicTrustRegionSQP::optimize"]}
{"id": "C13", "title": "Trust box bounds are consistent, inside the variable bounds, and contain the projected iterate", "statement": "For lb <= ub and a non-negative box size, setTrustBoxConstraints installs for each variable an interval with lower <= upper, contained in [lb,ub], containing the projection of x onto [lb,ub], and contained in [x-box, x+box] whenever x lies within the bounds; the same holds for the box computed by the trajopt_sqp QP problems.", "quantifier": "every iterate, bound vector and box size", "why_tests_cant": "bounds/box/iterate order relations have many cases, including x outside the bounds", "anchors": ["trajopt_sco/src/optimizers.cpp: BasicTrustRegionSQP::setTrustBoxConstraints", "trajopt_optimizers/trajopt_sqp/src/trajopt_qp_problem.cpp: updateNLPVariableBounds", "trajopt_optimizers/trajopt_sqp/src/ifopt_qp_problem.cpp: updateNLPVariableBounds"]}
{"id": "C14", "title": "Parallel evaluation equals serial evaluation", "statement": "BasicTrustRegionSQPMultiThreaded / the OpenMP evaluation of costs, constraint violations and convexifications produces, for every schedule of the loop iterations over threads, the same result vector as the serial loop.", "quantifier": "every schedule (interleaving of per-index writes), any number of terms", "why_tests_cant": "a test exercises a few schedules", "anchors": ["trajopt_sco/src/optimizers.cpp: evaluateCosts, evaluateConstraintViols, convexifyCosts, convexifyConstraints (omp and serial)"]}
{"id": "C15", "title": "Slack variables implement the exact L1 penalty", "statement": "In the QP built for the trajopt_sqp solver, for every value of the decision variables, minimising the slack part of the objective over all slack values that make the constraint rows feasible gives exactly sum_i merit_i*coeff_i*viol_i, where viol_i is the violation of the i-th linearised row by its bounds (two slacks for equalities, one for one-sided bounds); and the minimum is attained.", "quantifier": "every number of rows, every mix of row types, every coefficient >= 0, every point", "why_tests_cant": "it is a minimisation over a continuum of slack values for arbitrary row mixes", "anchors": ["trajopt_optimizers/trajopt_sqp/src/trajopt_qp_problem.cpp: convexify, update", "trajopt_optimizers/trajopt_sqp/src/ifopt_qp_problem.cpp: linearizeConstraints, updateSlackVariableBounds, updateGradient"]}
{"id": "C16", "title": "The linearised constraints reproduce the constraints at the current point", "statement": "After convexify(), evaluating the linearised constraint (matrix row times current variables plus constant) gives the exact constraint value at the current variables, for both QP problem classes.", "quantifier": "every Jacobian, constraint value and iterate", "why_tests_cant": "entries below the sparsity threshold are dropped, the error shows only for large iterates", "anchors": ["trajopt_optimizers/trajopt_sqp/src/trajopt_qp_problem.cpp: convexify", "trajopt_optimizers/trajopt_sqp/src/ifopt_qp_problem.cpp: linearizeConstraints"]}
{"id": "C17", "title": "Squared cost expansion is exact", "statement": "AffExprs::square(weights) yields quadratic expressions whose value at every point equals w_i*(A_i x + b_i)^2, and the objective gradient/Hessian/constant summed from them equals the sum of those values.", "quantifier": "every affine system, every point, non-negative weights", "why_tests_cant": "polynomial identity over all inputs", "anchors": ["trajopt_optimizers/trajopt_sqp/src/expressions.cpp: AffExprs::square, QuadExprs::values"]}
{"id": "C18", "title": "Second-order cost expansion reproduces value and gradient at the expansion point", "statement": "QuadExprs::create(values, jacobian, hessians, x) evaluates at x to the given values, and its gradient at x is the given Jacobian, for every cost including those with an empty Hessian.", "quantifier": "every value/Jacobian/Hessian/point", "why_tests_cant": "needs costs with and without Hessians mixed in one set", "anchors": ["trajopt_optimizers/trajopt_sqp/src/expressions.cpp: QuadExprs::create"]}
{"id": "C19", "title": "First-order expansion is exact at the expansion point and exact everywhere for affine functions", "statement": "AffExprs::create(values, jacobian, x) evaluates to values at x; if the function is affine with that Jacobian, it equals the function everywhere.", "quantifier": "every value/Jacobian/point", "why_tests_cant": "algebraic identity over all inputs", "anchors": ["trajopt_optimizers/trajopt_sqp/src/expressions.cpp: AffExprs::create, AffExprs::values"]}
{"id": "C20", "title": "Each constraint gets its own merit coefficient", "statement": "When the QP gradient is assembled, the slack penalty of every row of constraint set k uses the k-th merit coefficient as adjusted by the solver for constraint set k.", "quantifier": "every number and size of constraint sets, including dynamic sets that currently have zero rows", "why_tests_cant": "zero-row dynamic sets before other sets do not occur in the test problems", "anchors": ["trajopt_optimizers/trajopt_sqp/src/trajopt_qp_problem.cpp: convexify, setup, update"]}
{"id": "C21", "title": "setup() may be called again without changing the problem", "statement": "Calling setup() on a trajopt_sqp QP problem a second time leaves the set of costs and constraints (and hence getExactCosts / getExactConstraintViolations) unchanged.", "quantifier": "every problem", "why_tests_cant": "tests call setup once", "anchors": ["trajopt_optimizers/trajopt_sqp/src/trajopt_qp_problem.cpp: setup"]}
{"id": "C22", "title": "Exact and convex evaluations of the penalty terms use the weights of the objective", "statement": "The penalty cost reported by getExactCosts for a hinge/absolute cost equals the coefficient-weighted violation that the QP objective charges for the same point.", "quantifier": "every coefficient vector and point", "why_tests_cant": "unit coefficients hide the difference", "anchors": ["trajopt_optimizers/trajopt_sqp/src/trajopt_qp_problem.cpp: getExactCosts, evaluateConvexCosts, convexify"]}
{"id": "C23", "title": "Projection onto bounds is the nearest feasible point", "statement": "getClosestValidPoint(x, bounds) returns a point inside the bounds, leaves points already inside unchanged, is idempotent, and no point inside the bounds is closer to x in any coordinate.", "quantifier": "every x, every list of bounds with lower <= upper, any length", "why_tests_cant": "must hold for all inputs including infinite bounds", "anchors": ["trajopt_ifopt/src/utils/ifopt_utils.cpp: getClosestValidPoint"]}
{"id": "C24", "title": "Bound errors and violations measure distance to the interval", "statement": "calcBoundsErrors gives the signed distance of each value to its interval (0 iff inside, otherwise value minus the violated bound), and calcBoundsViolations is its absolute value: zero iff the value satisfies the bound.", "quantifier": "every value and bound vector with lower <= upper", "why_tests_cant": "needs all interval kinds and positions", "anchors": ["trajopt_ifopt/src/utils/ifopt_utils.cpp: calcBoundsErrors, calcBoundsViolations"]}
{"id": "C25", "title": "Stacked components stay aligned", "statement": "For a row-stacking composite, the i-th block of getValues, getBounds, getCoefficients and the rows of getJacobian all belong to the same component, the number of rows is the sum of the components' rows, and a component's rows never influence another component's block.", "quantifier": "every number and size of components (including empty ones)", "why_tests_cant": "offset bugs show only for particular size mixes", "anchors": ["trajopt_ifopt/src/core/composite.cpp: addComponent, update, getValues, getJacobian, getBounds"]}
{"id": "C26", "title": "The problem cost is the sum of its cost terms", "statement": "evaluateCostFunction(x) equals the sum of the values of all added cost terms at x and evaluateCostFunctionGradient(x) the sum of their gradients.", "quantifier": "every number of cost terms", "why_tests_cant": "with one cost term nothing can go wrong", "anchors": ["trajopt_ifopt/src/core/problem.cpp: Problem, evaluateCostFunction, evaluateCostFunctionGradient"]}
{"id": "C27", "title": "Node variables tile the decision vector", "statement": "The variables of all nodes of a NodesVariables occupy consecutive, pairwise disjoint index ranges covering exactly [0, rows); setVariables followed by getValues returns the vector that was set; each Var's value() is exactly its own slice; bounds are stacked in the same order.", "quantifier": "every number of nodes, variables per node and variable sizes", "why_tests_cant": "layout bugs depend on size mixes", "anchors": ["trajopt_ifopt/src/variable_sets/nodes_variables.cpp", "trajopt_ifopt/src/variable_sets/node.cpp", "trajopt_ifopt/src/variable_sets/var.cpp"]}
{"id": "C28", "title": "Squared and absolute costs: value, zero set and gradient", "statement": "SquaredCost returns sum |w_i|*e_i^2 and AbsoluteCost sum |w_i|*viol_i of the wrapped constraint's bound errors: they are non-negative, zero (for non-zero weights) exactly when the constraint is satisfied, and the SquaredCost gradient is the derivative of its value when the constraint is affine.", "quantifier": "every weight vector, constraint value vector, bound vector", "why_tests_cant": "algebraic identity over all inputs", "anchors": ["trajopt_ifopt/src/costs/squared_cost.cpp", "trajopt_ifopt/src/costs/absolute_cost.cpp"]}
{"id": "C29", "title": "Finite-difference joint constraints are the documented differences with exact Jacobians", "statement": "JointVel/Accel/JerkConstraint values are the differences of order 1/2/3 of consecutive joint positions, one positive coefficient per row being reported separately; the Jacobian is the exact derivative: value(x+d) = value(x) + J d for every d; and at the last nodes the backward formula equals the same order of difference.", "quantifier": "every number of positions above the minimum, every DOF count, every point and perturbation", "why_tests_cant": "index arithmetic over all sizes", "anchors": ["trajopt_ifopt/src/constraints/joint_velocity_constraint.cpp", "trajopt_ifopt/src/constraints/joint_acceleration_constraint.cpp", "trajopt_ifopt/src/constraints/joint_jerk_constraint.cpp"]}
{"id": "C30", "title": "JointPosConstraint accepts every documented coefficient vector", "statement": "Constructing a JointPosConstraint with an empty, a size-1 or a size-n_dof coefficient vector either throws or yields coefficients defined for every degree of freedom and every node, without reading outside the supplied vector.", "quantifier": "every coefficient vector length, node count and DOF count", "why_tests_cant": "reads beyond a vector are invisible to value-based tests", "anchors": ["trajopt_ifopt/src/constraints/joint_position_constraint.cpp: JointPosConstraint ctors"]}
{"id": "C31", "title": "Expression algebra is sound", "statement": "For every operation of expr_ops (scale, negate, add, subtract, multiply by scalar, increment/decrement on constants, variables, affine and quadratic expressions) the value of the result at every x equals the arithmetic operation on the values of the operands.", "quantifier": "every expression (any length, repeated variables) and every point", "why_tests_cant": "homomorphism over all expressions", "anchors": ["trajopt_sco/include/trajopt_sco/expr_ops.hpp", "trajopt_sco/src/expr_ops.cpp", "trajopt_sco/src/solver_interface.cpp: AffExpr::value, QuadExpr::value"]}
{"id": "C32", "title": "Products and squares of affine expressions are exact", "statement": "exprMult(a,b) and exprSquare(a) evaluate at every x to the product / square of the affine values, for every number of (possibly repeated or zero-coefficient) terms.", "quantifier": "every pair of affine expressions and every point", "why_tests_cant": "cross terms, repeated variables", "anchors": ["trajopt_sco/src/expr_ops.cpp: exprMult, exprSquare"]}
{"id": "C33", "title": "cleanupAff changes the value only negligibly", "statement": "cleanupAff removes only terms with |coeff| <= 1e-7, keeps all others in order, and changes the value at x by at most 1e-7 * sum |x_i| over the removed terms.", "quantifier": "every affine expression and point", "why_tests_cant": "error bound over all inputs", "anchors": ["trajopt_sco/src/expr_ops.cpp: cleanupAff"]}
{"id": "C34", "title": "Conversion to matrix form preserves the objective and the constraints", "statement": "exprToEigen: for every quadratic expression and every point x, 1/2 x'Px + q'x (with P as passed to OSQP) equals the expression's value minus its constant; for affine vectors A x compared with -constant expresses exactly value <= 0 / = 0; out-of-range indices throw.", "quantifier": "every expression, repeated and unordered variable pairs, every point", "why_tests_cant": "factor-of-two and symmetrisation errors depend on the mix of diagonal/off-diagonal/repeated terms", "anchors": ["trajopt_sco/src/solver_utils.cpp: exprToEigen"]}
{"id": "C35", "title": "Hinge, absolute value and norm terms are exact in the QP", "statement": "For every affine expression a and coefficient c >= 0, minimising over the auxiliary variables introduced by addHinge / addAbs / addL1Norm / addHinges the objective subject to the added constraints equals c*max(a(x),0) / c*|a(x)| (or their sums), attained; addL2Norm adds exactly the sum of squares.", "quantifier": "every x, every expression vector, every coefficient >= 0", "why_tests_cant": "minimisation over a continuum", "anchors": ["trajopt_sco/src/modeling.cpp: ConvexObjective::addHinge, addAbs, addHinges, addL1Norm, addL2Norm"]}
{"id": "C36", "title": "addMax adds the maximum to the objective and cleans up after itself", "statement": "ConvexObjective::addMax(exprs) makes the minimal objective increase by the maximum of the expressions, and removeFromModel() later removes every variable it created.", "quantifier": "every expression vector", "why_tests_cant": "the term is not used by the tests", "anchors": ["trajopt_sco/src/modeling.cpp: ConvexObjective::addMax, removeFromModel"]}
{"id": "C37", "title": "getClosestFeasiblePoint respects both bounds", "statement": "OptProb::getClosestFeasiblePoint(x) returns, per variable, a value inside [lower, upper] and leaves feasible points unchanged.", "quantifier": "every x and bound vector", "why_tests_cant": "tests start inside the bounds", "anchors": ["trajopt_sco/src/modeling.cpp: OptProb::getClosestFeasiblePoint"]}
{"id": "C38", "title": "Constraint violations are zero exactly on the feasible set", "statement": "Constraint::violations is elementwise non-negative and is all-zero iff every equality value is 0 / every inequality value is <= 0; violation() is their sum; the same holds for ConvexConstraints::violations on the linearisation.", "quantifier": "every value vector", "why_tests_cant": "iff over all inputs", "anchors": ["trajopt_sco/src/modeling.cpp: Constraint::violations, ConvexConstraints::violations"]}
{"id": "C39", "title": "The convex model of an error-function cost matches the cost at the expansion point", "statement": "For CostFromErrFunc with any penalty type, minimising the convexification over auxiliary variables at the expansion point gives value(x) (up to coefficients dropped by cleanup), for every weight vector.", "quantifier": "every error vector, Jacobian, weight vector, penalty type", "why_tests_cant": "negative and zero weights take different branches", "anchors": ["trajopt_sco/src/modeling_utils.cpp: CostFromErrFunc::value, convex, affFromValGrad"]}
{"id": "C40", "title": "Model::update() keeps variables, bounds and constraints attached", "statement": "After any sequence of addVar/addCnt/removeVars/removeCnts, update() leaves exactly the non-removed variables and constraints in their original order, renumbered consecutively, each with its own bounds / expression / type; expressions over surviving variables keep their meaning.", "quantifier": "every interleaving of adds, removes and updates", "why_tests_cant": "in-place compaction errors depend on the removal pattern", "anchors": ["trajopt_sco/src/osqp_interface.cpp: OSQPModel::update", "trajopt_sco/src/bpmpd_interface.cpp: BPMPDModel::update", "trajopt_sco/src/qpoases_interface.cpp: qpOASESModel::update"]}
{"id": "C41", "title": "The OSQP problem has the feasible set of the model", "statement": "A point satisfies the l <= A x <= u rows built by OSQPModel iff it satisfies every equality, every inequality and every variable bound of the model (bounds beyond +-OSQP_INFTY treated as infinite).", "quantifier": "every model and point", "why_tests_cant": "iff over all points", "anchors": ["trajopt_sco/src/osqp_interface.cpp: updateConstraints"]}
{"id": "C42", "title": "Re-using an OSQP workspace solves the current problem", "statement": "If the workspace is updated in place rather than re-created, the matrices inside the workspace equal the matrices of the current model.", "quantifier": "every pair of consecutive models with equal dimensions", "why_tests_cant": "needs two consecutive problems whose sparsity patterns differ only in late entries", "anchors": ["trajopt_sco/src/osqp_interface.cpp: createOrUpdateSolver"]}
{"id": "C43", "title": "setObjective replaces the whole objective", "statement": "After setObjective(affine expression) the objective minimised by the model is that affine expression, regardless of any earlier setObjective call.", "quantifier": "every history of setObjective calls", "why_tests_cant": "tests set the objective once", "anchors": ["trajopt_sco/src/osqp_interface.cpp: setObjective", "trajopt_sco/src/qpoases_interface.cpp: setObjective", "trajopt_sco/src/bpmpd_interface.cpp: setObjective"]}
{"id": "C44", "title": "BPMPD receives an equivalent QP", "statement": "The column-compressed A, lower-triangular Q, linear term, rhs and bounds assembled for BPMPD describe a QP whose objective equals the model's objective minus its constant at every point and whose feasible set is the model's.", "quantifier": "every model and point", "why_tests_cant": "duplicates, unordered pairs and removed constraints", "anchors": ["trajopt_sco/src/bpmpd_interface.cpp: BPMPDModel::optimize"]}
{"id": "C45", "title": "The BPMPD pipe protocol transmits problems faithfully", "statement": "The child process receives exactly the problem the parent sent, and the parent exactly the solution the child sent, for every way the operating system splits reads and writes.", "quantifier": "every problem and every sequence of partial reads/writes", "why_tests_cant": "short reads happen only for large payloads or under load", "anchors": ["trajopt_sco/include/trajopt_sco/bpmpd_io.hpp: ser, deser", "trajopt_sco/src/bpmpd_caller.cpp"]}
{"id": "C46", "title": "Solver names and solver kinds agree", "statement": "Converting a solver name to ModelType and comparing it with the enumerator of that name yields equality, and converting an enumerator to its name and back is the identity.", "quantifier": "every solver name", "why_tests_cant": "finite but crosses two tables that no test compares", "anchors": ["trajopt_sco/include/trajopt_sco/solver_interface.hpp: ModelType", "trajopt_sco/src/solver_interface.cpp: ModelType::MODEL_NAMES_"]}
{"id": "C47", "title": "Cache returns the last value put for a key", "statement": "For every history of get/put/getOrAcquire/erase operations on trajopt_common::Cache, get(k) returns either nothing or the object most recently put under k; a stored key is only lost by erase, by a put concerning its key or its object, or as the least recently used one on a miss. In the ask / compute / put usage pattern every request yields the computed value and exactly the last `capacity` distinct keys are stored.", "quantifier": "every operation history and capacity", "why_tests_cant": "state-space of histories", "anchors": ["trajopt_common/include/trajopt_common/cache.h: Cache"]}
{"id": "C48", "title": "Cache slots are never shared", "statement": "No two keys are ever mapped to the same slot, a slot is never simultaneously assigned to a key and on the free list as available, the number of stored keys never exceeds the capacity, and the LRU list contains exactly the stored keys once each.", "quantifier": "every operation history", "why_tests_cant": "invariant over all histories", "anchors": ["trajopt_common/include/trajopt_common/cache.h: Cache"]}
{"id": "C49", "title": "Collision pair keys do not collide", "statement": "cantorHash(shape, subshape) is injective on the shape/subshape ids produced by the contact checker, including the 'no subshape' value -1.", "quantifier": "all pairs of ids", "why_tests_cant": "injectivity over an infinite domain", "anchors": ["trajopt_common/src/collision_utils.cpp: cantorHash"]}
{"id": "C50", "title": "Collision coefficients: last write wins, symmetric, exact zero set", "statement": "After any sequence of setCollisionCoeff / setDefaultCollisionCoeff calls, getCollisionCoeff(a,b) = getCollisionCoeff(b,a) is the last value set for the unordered pair or else the default; getPairsWithZeroCoeff is exactly the set of pairs whose last set value is zero.", "quantifier": "every call sequence", "why_tests_cant": "history quantification", "anchors": ["trajopt_common/src/collision_types.cpp: CollisionCoeffData"]}
{"id": "C51", "title": "Gradient result sets report the true maximum error", "statement": "After any sequence of GradientResultsSet::add calls, the recorded maximum errors are the maxima over all added results (per link/timestep slot), independent of order.", "quantifier": "every sequence of added results", "why_tests_cant": "history and order quantification", "anchors": ["trajopt_common/src/collision_types.cpp: GradientResultsSet::add, getMaxError"]}
{"id": "C52", "title": "Sub-trajectory interpolation respects the longest valid segment", "statement": "When two states are further apart than longest_valid_segment_length > 0 the evaluators interpolate so that the first and last interpolated states are the given states and consecutive states are at most longest_valid_segment_length apart; otherwise only the two end states are used.", "quantifier": "every pair of states, every segment length > 0", "why_tests_cant": "ceil/rounding corner cases", "anchors": ["trajopt/src/collision_terms.cpp: DiscreteCollisionEvaluator::CalcCollisions, CastCollisionEvaluator::CalcCollisions", "trajopt_ifopt/src/constraints/collision/continuous_collision_evaluators.cpp"]}
{"id": "C53", "title": "Collision weighted averages are convex combinations", "statement": "The weighted-average gradient is a combination with non-negative weights summing to one of the individual scaled gradients, so it lies in their convex hull.", "quantifier": "every gradient set with a positive error", "why_tests_cant": "normalisation over arbitrary sets", "anchors": ["trajopt_ifopt/src/constraints/collision/weighted_average_methods.cpp"]}
{"id": "C54", "title": "Discrete collision filtering keeps the worst contacts", "statement": "When more contact pairs than max_num_cnt exist, the pairs that are kept have maximum errors at least as large as every pair that is dropped.", "quantifier": "every contact set", "why_tests_cant": "requires many pairs with errors at both links", "anchors": ["trajopt_ifopt/src/constraints/collision/discrete_collision_evaluators.cpp: calcCollisions"]}
{"id": "C55", "title": "Array views address the right cells", "statement": "BasicArray row/col/block/middleRows/topRows/rblock/cblock return exactly the addressed cells of the original array for every in-range argument.", "quantifier": "every array size and in-range argument", "why_tests_cant": "off-by-start errors vanish for start = 0", "anchors": ["trajopt_common/include/trajopt_common/basic_array.hpp"]}
{"id": "C56", "title": "searchsorted and linear interpolation", "statement": "For a sorted table, searchsorted returns the insertion position separating smaller from larger entries; interp2d reproduces the table at its knots and interpolates linearly (staying between neighbouring values) elsewhere.", "quantifier": "every sorted table and every query", "why_tests_cant": "boundary cases for all tables", "anchors": ["trajopt_common/include/trajopt_common/interpolation.hpp: searchsorted, interp2d"]}
{"id": "C57", "title": "Joint subset extraction and update are inverse", "statement": "getSubset then updateFromSubset (and vice versa) restore the same values on the subset and leave all other joints unchanged; both refuse exactly when the name list is not a subset.", "quantifier": "every pair of name lists and value vectors", "why_tests_cant": "permutation and duplicate names", "anchors": ["trajopt/src/utils.cpp: getSubset, updateFromSubset, isSuperset"]}
{"id": "C58", "title": "Trajectory variables are laid out row by row with matching limits", "statement": "TrajOptProb creates one variable per (timestep, joint) plus optionally one time variable per timestep; GetVar(i,j) is the variable with index i*width+j; its bounds are joint j's limits (or the dt limits); getTraj(x, vars)(i,j) = x[i*width+j].", "quantifier": "every number of steps and joints, with and without time", "why_tests_cant": "index arithmetic over all sizes", "anchors": ["trajopt/src/problem_description.cpp: TrajOptProb", "trajopt/src/utils.cpp: getTraj, AddVarArrays"]}
{"id": "C59", "title": "Joint trajectory costs: convex model equals value", "statement": "For JointPos/Vel/Acc/JerkEqCost the quadratic expression equals value(x) at every x; for the inequality costs the minimised hinge model equals value(x) at every x.", "quantifier": "every trajectory length, DOF count, coefficients, targets, tolerances", "why_tests_cant": "index arithmetic and signs for all sizes", "anchors": ["trajopt/src/trajectory_costs.cpp"]}
{"id": "C60", "title": "Joint equality constraints: convex model agrees with value", "statement": "For JointPos/Vel/Acc/JerkEqConstraint the linearised constraint has the same value as value(x) at the linearisation point.", "quantifier": "every trajectory and coefficient", "why_tests_cant": "zero at targets for both, so tests at solutions agree", "anchors": ["trajopt/src/trajectory_costs.cpp: JointPosEqConstraint::value, convex and Vel/Acc/Jerk variants"]}
{"id": "C61", "title": "Step ranges are normalised into the trajectory", "statement": "For every first_step/last_step given for joint velocity, acceleration or jerk terms and every trajectory long enough for the order, the normalised range lies within [0, n_steps-1] and is long enough for the difference order, so that constructing the term does not throw.", "quantifier": "every first_step, last_step, n_steps", "why_tests_cant": "integer corner cases", "anchors": ["trajopt/src/problem_description.cpp: JointVelTermInfo::hatch, JointAccTermInfo::hatch, JointJerkTermInfo::hatch"]}
{"id": "C62", "title": "Fixed timesteps and DOFs are checked", "statement": "ConstructProblem rejects every fixed_timesteps entry that is not a valid timestep and every fixed_dofs entry that is not a joint index, and for accepted ones adds exactly the equality constraints x(t,j) = init(t,j).", "quantifier": "every entry value, every problem size", "why_tests_cant": "boundary values only", "anchors": ["trajopt/src/problem_description.cpp: ConstructProblem"]}
{"id": "C63", "title": "Collision terms treat fixed steps as fixed", "statement": "For every pair of consecutive steps and every set of fixed steps, the collision evaluator created by CollisionTermInfo never treats a fixed step as free; a segment with both ends fixed is skipped or rejected.", "quantifier": "every set of fixed steps, every range", "why_tests_cant": "adjacent fixed steps are not in the tests", "anchors": ["trajopt/src/problem_description.cpp: CollisionTermInfo::hatch"]}
{"id": "C64", "title": "Every JSON field a term reads is a field it accepts", "statement": "For each term type, a field that fromJson reads when present is not rejected by the unknown-member check.", "quantifier": "every term type and field", "why_tests_cant": "the optional field is not used in the test JSON", "anchors": ["trajopt/src/problem_description.cpp: CollisionTermInfo::fromJson, ensure_only_members"]}
{"id": "C65", "title": "Parameter broadcasting", "statement": "checkParameterSize accepts exactly vectors of the expected size and (when allowed) of size one, expanding the latter to the expected size with equal entries, and rejects everything else by throwing.", "quantifier": "every vector and size", "why_tests_cant": "all sizes", "anchors": ["trajopt/src/problem_description.cpp: checkParameterSize"]}
{"id": "C66", "title": "Time-parameterised joint velocity error and time cost have exact Jacobians", "statement": "JointVelJacCalculator and TimeCostJacCalculator return the exact derivative of JointVelErrCalculator and TimeCostCalculator at every point with non-zero inverse time variables.", "quantifier": "every trajectory and point", "why_tests_cant": "derivative identity over all points", "anchors": ["trajopt/src/kinematic_terms.cpp: JointVelErrCalculator, JointVelJacCalculator, TimeCostCalculator, TimeCostJacCalculator"]}
{"id": "C67", "title": "Collision results come from the queried state", "statement": "CollisionEvaluator::GetContactResultCached(x) returns the contact results computed for the joint values in x.", "quantifier": "every history of queries", "why_tests_cant": "requires a hash collision", "anchors": ["trajopt/src/collision_terms.cpp: GetContactResultCached", "trajopt/include/trajopt/cache.hxx"]}
{"id": "C68", "title": "Collision cost: convex model equals value at the linearisation point", "statement": "At the linearisation point the distance expressions evaluate to the contact distances (up to dropped tiny coefficients), so the minimised hinge model of CollisionCost equals CollisionCost::value.", "quantifier": "every set of contacts that each involve a moving link, gradient, state", "why_tests_cant": "algebraic identity over all contact sets", "anchors": ["trajopt/src/collision_terms.cpp: CollisionsToDistanceExpressions, CalcDistExpressions*, CollisionCost::convex, CollisionCost::value"]}
{"id": "C69", "title": "Singularity-avoidance on a joint subset evaluates the right joint values", "statement": "AvoidSingularitySubsetErrCalculator / JacCalculator compute the subset joint values from the full joint vector in every build configuration.", "quantifier": "every joint vector, with and without NDEBUG", "why_tests_cant": "release builds drop assert() arguments; the unit tests are built with assertions", "anchors": ["trajopt/src/kinematic_terms.cpp: AvoidSingularitySubsetErrCalculator, AvoidSingularitySubsetJacCalculator"]}
{"id": "C70", "title": "A step with an undefined merit is never accepted", "statement": "TrustRegionSQPSolver never replaces the best iterate by a trial point whose exact merit is not a number.", "quantifier": "every problem, every floating-point value including NaN", "why_tests_cant": "needs a cost function that returns NaN at exactly a trial point", "anchors": ["trajopt_optimizers/trajopt_sqp/src/trust_region_sqp_solver.cpp: runTrustRegionLoop, solveQPProblem"]}
{"id": "C71", "title": "A re-initialised sco optimizer behaves like a new one", "statement": "Calling initialize(x) and optimize() on a BasicTrustRegionSQP object that has already been used gives the same outcome as on a new object with the same user parameters and the same problem.", "quantifier": "every history of earlier runs", "why_tests_cant": "needs two runs on one object where the first ends with a shrunken trust region", "anchors": ["trajopt_sco/src/optimizers.cpp: optimize, adjustTrustRegion, setTrustRegionSize, Optimizer::initialize"]}
{"id": "C72", "title": "Function costs are modelled by their second-order expansion with the Hessian diagonal clamped at zero", "statement": "For CostFromFunc without a full Hessian, the convexification at x is val + sum g_i (x'_i-x_i) + 1/2 sum max(h_i,0)(x'_i-x_i)^2: it equals the function value at x and never lies below its tangent plane. The numerical gradient and curvature are exact for functions that are quadratic along each coordinate axis, and the forward-difference gradient/Jacobian is exact for affine functions and off by exactly curvature*epsilon for quadratic ones.", "quantifier": "every function value, gradient, curvature, expansion point, evaluation point, step size", "why_tests_cant": "algebraic identity over all expansions; tests check single functions to a tolerance", "anchors": ["trajopt_sco/src/modeling_utils.cpp: CostFromFunc::convex", "trajopt_sco/src/num_diff.cpp: calcForwardNumGrad, calcForwardNumJac, calcGradAndDiagHess"]}
{"id": "C73", "title": "Constraint penalties in the merit model are exact", "statement": "For every set of convexified constraints and non-negative merit coefficients, the minimum over the auxiliary variables of the sum of the objectives produced by cntsToCosts is the sum over constraints of coefficient times ConvexConstraints::violation at every point, and it is attained.", "quantifier": "every constraint set, coefficient vector >= 0 and point", "why_tests_cant": "minimisation over a continuum, interaction of auxiliary variables of several constraints in one model", "anchors": ["trajopt_sco/src/optimizers.cpp: cntsToCosts", "trajopt_sco/src/modeling.cpp: ConvexConstraints::violation, ConvexObjective::addAbs, addHinge"]}
{"id": "C74", "title": "SQP limit statuses are truthful", "statement": "If TrustRegionSQPSolver::solve ends with kTimeLimit, the clock was read above max_time; with kIterationLimit, at least max_iterations QPs were solved; with kPenaltyIterationLimit, the penalty rounds were used up; in none of these cases was the tolerance met at the returned point. If every clock reading is late, no QP is solved at all.", "quantifier": "every problem, parameter set, solver behaviour and clock", "why_tests_cant": "limits interact through three nested loops and one shared status variable", "anchors": ["trajopt_optimizers/trajopt_sqp/src/trust_region_sqp_solver.cpp: solve, stepSQPSolver, runTrustRegionLoop"]}
{"id": "C75", "title": "Trust box and penalty coefficients are functions of the solver history", "statement": "The box size and the merit coefficients of TrustRegionSQPSolver are determined by the sequence of accepted steps, rejected steps, failed QPs and penalty rounds (expand, shrink, jump to the minimum before the last retry, reset after a penalty round, inflate the violated constraints), and a QP is only solved while the box is at least min_trust_box_size.", "quantifier": "every problem and every history", "why_tests_cant": "a property of all interleavings of events", "anchors": ["trajopt_optimizers/trajopt_sqp/src/trust_region_sqp_solver.cpp: runTrustRegionLoop, setBoxSize, constraintMeritCoeffChanged, adjustPenalty"]}
{"id": "C76", "title": "sco trust box and penalty coefficients are functions of the optimizer history", "statement": "In BasicTrustRegionSQP::optimize the trust box is the initial size times trust_expand_ratio per accepted and trust_shrink_ratio per rejected step, shrunk on tolerated QP failures, set to the minimum on the last tolerated one, and raised to at least min/shrink*1.5 after each penalty increase; the penalty coefficients start at initial_merit_error_coeff and are multiplied by merit_coeff_increase_ratio exactly for the constraints violated by more than cnt_tolerance (all of them without individual inflation). QPs are only solved while the box is at least min_trust_box_size.", "quantifier": "every problem, parameter set, solver behaviour and history", "why_tests_cant": "a property of all interleavings of events", "anchors": ["trajopt_sco/src/optimizers.cpp: BasicTrustRegionSQP::optimize, adjustTrustRegion"]}
{"id": "C77", "title": "sco limit statuses are truthful", "statement": "OPT_TIME_LIMIT is only reported after a clock reading above max_time, OPT_SCO_ITERATION_LIMIT only after max_iter convexifications with the current penalty, OPT_FAILED only after more than max_qp_solver_failures failed QPs on one convexification, OPT_PENALTY_ITERATION_LIMIT only after max_merit_coeff_increases increases; except for OPT_FAILED the returned point then misses the constraint tolerance.", "quantifier": "every problem, parameter set, solver behaviour and clock", "why_tests_cant": "limits interact through nested loops and goto cleanup", "anchors": ["trajopt_sco/src/optimizers.cpp: BasicTrustRegionSQP::optimize"]}
{"id": "C78", "title": "Contact filtering removes exactly the irrelevant contacts", "statement": "removeInvalidContactResults keeps a contact exactly when its distance is at most margin + buffer and, if one end of the motion is fixed, some link is in contact elsewhere than at that end; the older filter of trajopt's evaluators agrees with it, as they assert.", "quantifier": "every contact list, margin, buffer and choice of fixed end", "why_tests_cant": "all combinations of contact types and end states", "anchors": ["trajopt_common/src/collision_utils.cpp: removeInvalidContactResults", "trajopt/src/collision_terms.cpp: CollisionEvaluator::removeInvalidContactResults"]}
{"id": "C79", "title": "The two discrete collision constraints linearise a single contact alike", "statement": "For a data set with one contact, DiscreteCollisionConstraint::getJacobian (weighted average) and DiscreteCollisionConstraintD::getJacobian give the same row.", "quantifier": "every contact and gradient", "why_tests_cant": "depends on which of the two links move", "anchors": ["trajopt_ifopt/src/constraints/collision/discrete_collision_constraint.cpp: DiscreteCollisionConstraint::getJacobian, DiscreteCollisionConstraintD::getJacobian", "trajopt_ifopt/src/constraints/collision/weighted_average_methods.cpp"]}
{"id": "C80", "title": "Every contact enters exactly one gradient result set", "statement": "The evaluators partition the contacts by link pair and shape keys: no contact is lost or counted twice, the keys of the sets are distinct, every set is non-empty, keeps the contact order and carries the coefficient of its pair.", "quantifier": "every contact map, coefficient table and key function", "why_tests_cant": "quantifies over all groupings", "anchors": ["trajopt_ifopt/src/constraints/collision/discrete_collision_evaluators.cpp: calcCollisions", "trajopt_ifopt/src/constraints/collision/continuous_collision_evaluators.cpp: calcCollisionData"]}
{"id": "C81", "title": "Collision row coefficients reflect the current contacts", "statement": "After update() the coefficient of a row in use is that of its gradient result set, and the coefficient vector is determined by the current contacts.", "quantifier": "every sequence of updates", "why_tests_cant": "stale state shows only across updates", "anchors": ["trajopt_ifopt/src/constraints/collision/discrete_collision_constraint.cpp: update", "trajopt_ifopt/src/constraints/collision/continuous_collision_constraint.cpp: update"]}
{"id": "C82", "title": "Numerical Jacobians are one-variable forward differences", "statement": "calcNumericalConstraintGradient(variables, constraint_set, epsilon) evaluates the constraint for column i with variable i disturbed by epsilon and every other variable at its original value, is exact for affine constraints, and leaves the variables as they were.", "quantifier": "every constraint function, number of variables, point and step", "why_tests_cant": "a leftover disturbance shows only for some functions", "anchors": ["trajopt_ifopt/src/utils/ifopt_utils.cpp: calcNumericalConstraintGradient"]}
{"id": "C83", "title": "Interpolation is linear and hits both ends", "statement": "interpolate(start, end, steps) returns steps points, the first is start, the last is end, and the i-th is start + i/(steps-1) (end - start).", "quantifier": "every pair of vectors of equal length and every steps >= 2", "why_tests_cant": "quantifies over all sizes", "anchors": ["trajopt_ifopt/src/utils/ifopt_utils.cpp: interpolate"]}
{"id": "C84", "title": "Squared costs enter the QP as their Gauss-Newton model", "statement": "After convexify() of TrajOptQPProblem the quadratic and linear objective of the QP, plus a constant, equals the sum over all squared costs and rows of coefficient times the square of the linearised distance to the target, up to what Hessian entries below 1e-7 contribute.", "quantifier": "every number of squared costs, every Jacobian, non-negative coefficient vector and point", "why_tests_cant": "an identity between functions of the step", "anchors": ["trajopt_optimizers/trajopt_sqp/src/trajopt_qp_problem.cpp: convexify"]}
{"id": "C85", "title": "The convex costs can be evaluated after convexify()", "statement": "After a successful convexify() of TrajOptQPProblem, evaluateConvexCosts() accepts every vector of QP variables and returns one value per cost, that of a squared cost being its Gauss-Newton value.", "quantifier": "every problem with consistent cost sets", "why_tests_cant": "sets whose number of rows becomes zero are rare", "anchors": ["trajopt_optimizers/trajopt_sqp/src/trajopt_qp_problem.cpp: evaluateConvexCosts, convexify"]}
{"id": "C86", "title": "Convex costs of IfoptQPProblem touch the exact costs", "statement": "After convexify() of IfoptQPProblem, evaluateConvexCosts() at the current values returns getExactCosts(), and at any other point each cost differs from its exact value by one and the same amount, the Gauss-Newton change of the sum of all cost sets.", "quantifier": "every reachable problem with consistent sets and every step", "why_tests_cant": "an identity between functions of the step", "anchors": ["trajopt_optimizers/trajopt_sqp/src/ifopt_qp_problem.cpp: convexify, evaluateConvexCosts"]}
{"id": "C87", "title": "IfoptQPProblem's total convex cost models its total exact cost", "statement": "evaluateTotalConvexCost(x0 + d) is the Gauss-Newton model of the sum of the exact costs: the sum of the squares of the linearised errors with the weights of the exact cost.", "quantifier": "every number and kind of cost sets, every coefficient vector and step", "why_tests_cant": "with one unweighted cost the defect is invisible", "anchors": ["trajopt_optimizers/trajopt_sqp/src/ifopt_qp_problem.cpp: evaluateTotalConvexCost, getExactCosts, updateHessian, updateGradient"]}
{"id": "C88", "title": "A cost set that addCostSet rejects leaves IfoptQPProblem unchanged", "statement": "If addCostSet() throws, the costs and the QP objective are those of the problem without the set; if it does not throw, the set is in both.", "quantifier": "every cost set and penalty type", "why_tests_cant": "exception paths are not tested", "anchors": ["trajopt_optimizers/trajopt_sqp/src/ifopt_qp_problem.cpp: addCostSet"]}
{"id": "C89", "title": "Joint inequality constraints: the linearisation has the violation of the value", "statement": "For JointPos/Vel/Acc/JerkIneqConstraint the rows of the linearised constraint and of value(x) are the same in the same order, and the violation computed from either is the same at every x.", "quantifier": "every trajectory, coefficient vector, tolerance and point", "why_tests_cant": "the tests compare sums of violations at feasible points", "anchors": ["trajopt/src/trajectory_costs.cpp: JointPosIneqConstraint, JointVelIneqConstraint, JointAccIneqConstraint, JointJerkIneqConstraint"]}
{"id": "C90", "title": "Cartesian velocity terms apply to consecutive steps of the trajectory", "statement": "For every first_step/last_step that CartVelTermInfo::fromJson accepts, hatch() adds one term per step from first_step to last_step over the joint variables of that step and the next, and does not throw.", "quantifier": "every accepted range, every trajectory", "why_tests_cant": "tests use one range", "anchors": ["trajopt/src/problem_description.cpp: CartVelTermInfo::fromJson, CartVelTermInfo::hatch"]}
{"id": "C91", "title": "Total time terms apply to the time variables", "statement": "For every problem ConstructProblem accepts, TotalTimeTermInfo::hatch() applies the time cost to the time variables of all steps but the first.", "quantifier": "every problem size, with and without time", "why_tests_cant": "tests only use problems with time", "anchors": ["trajopt/src/problem_description.cpp: TotalTimeTermInfo::hatch, ConstructProblem"]}
{"id": "C92", "title": "The initial trajectory starts at the current state, ends at the goal and has equal steps", "statement": "generateInitTraj gives n_steps rows: the current state repeated (STATIONARY), the straight line in joint space from the current state to the given endpoint with equal steps (JOINT_INTERPOLATED), or the given matrix; with time the column dt is appended; ConstructProblem accepts exactly matrices of the right size.", "quantifier": "every number of steps, joints, every endpoint", "why_tests_cant": "an identity for all steps", "anchors": ["trajopt/src/problem_description.cpp: generateInitTraj, ConstructProblem"]}
{"id": "C93", "title": "Time flags are consistent", "statement": "ConstructProblem accepts the terms exactly when every term supports the list it is in and the use of time, and basic_info.use_time is set exactly when some term uses time.", "quantifier": "every list of terms and flag combination", "why_tests_cant": "combinatorial in the flags and lists", "anchors": ["trajopt/src/problem_description.cpp: ConstructProblem"]}
{"id": "C94", "title": "Hatching a joint term adds the documented cost or constraint", "statement": "JointPos/Vel/Acc/JerkTermInfo::hatch() adds for every term type exactly one cost or constraint over the joint columns and the normalised range, of the equality class exactly when the tolerances are zero, whose value is the documented sum; a velocity term using time adds one per joint over that joint and the time variables of the range; wrong parameter sizes throw.", "quantifier": "every parameter size, range, tolerance and point", "why_tests_cant": "values for all points and all parameter shapes", "anchors": ["trajopt/src/problem_description.cpp: JointPosTermInfo::hatch, JointVelTermInfo::hatch, JointAccTermInfo::hatch, JointJerkTermInfo::hatch"]}
{"id": "C95", "title": "Timed joint acceleration and jerk errors have exact Jacobians and the documented values", "statement": "JointAccJacCalculator and JointJerkJacCalculator return the exact derivative of JointAccErrCalculator and JointJerkErrCalculator, and the errors are the finite differences over the elapsed times as the comments say.", "quantifier": "every trajectory and point with non-zero times", "why_tests_cant": "derivative identity over all points; the unit tests compare against the same formula", "anchors": ["trajopt/src/kinematic_terms.cpp: JointAccErrCalculator, JointAccJacCalculator, JointJerkErrCalculator, JointJerkJacCalculator"]}
{"id": "C96", "title": "The Cartesian velocity term limits the displacement between two steps", "statement": "CartVelErrCalculator is non-positive exactly when the link moves by at most the limit along each axis; CartVelJacCalculator is its exact derivative when the kinematic Jacobian is exact at every tcp offset and the offset is zero or longer than 1e-12; as a cost it is the documented absolute sum.", "quantifier": "every pair of joint vectors, limit and tcp offset", "why_tests_cant": "derivative identity over all points", "anchors": ["trajopt/src/kinematic_terms.cpp: CartVelErrCalculator, CartVelJacCalculator", "trajopt/src/problem_description.cpp: CartVelTermInfo::hatch"]}
{"id": "C97", "title": "Pose terms select the weighted components and differentiate them exactly", "statement": "CartPoseTermInfo and DynamicCartPoseTermInfo keep exactly the components with non-zero coefficients, and the Jacobian calculators give the derivative of the selected components up to the error of the kinematic Jacobian.", "quantifier": "every coefficient vector, pose and joint vector", "why_tests_cant": "all selections and all points; tests use full selections", "anchors": ["trajopt/src/kinematic_terms.cpp: CartPoseErrCalculator, CartPoseJacCalculator, DynamicCartPoseErrCalculator, DynamicCartPoseJacCalculator", "trajopt/src/problem_description.cpp: CartPoseTermInfo, DynamicCartPoseTermInfo"]}
{"id": "C98", "title": "Pose tolerances accept exactly the poses within them", "statement": "With lower and upper tolerances the error of a component is zero exactly when the pose error lies in the tolerance band, and otherwise its distance to the band.", "quantifier": "every tolerance band and error", "why_tests_cant": "all bands, including narrow and off-centre ones", "anchors": ["trajopt/src/kinematic_terms.cpp: applyTolerances, CartPoseErrCalculator, DynamicCartPoseErrCalculator"]}
{"id": "C99", "title": "The singularity term keeps the robot away from singularities", "statement": "As a constraint the term holds exactly when the smallest singular value is at least the threshold; its gradient is exact; as a cost it decreases as the smallest singular value grows.", "quantifier": "every configuration, lambda", "why_tests_cant": "monotonicity and derivative over all points", "anchors": ["trajopt/src/kinematic_terms.cpp: AvoidSingularityErrCalculator, AvoidSingularityJacCalculator", "trajopt/src/problem_description.cpp: AvoidSingularityTermInfo::hatch"]}
{"id": "C100", "title": "The total time term limits the total time", "statement": "As a constraint with a limit the term holds exactly when the sum of the time steps is at most the limit; as a cost it penalises the total time.", "quantifier": "every limit and time vector", "why_tests_cant": "all limits, including the default", "anchors": ["trajopt/src/kinematic_terms.cpp: TimeCostCalculator", "trajopt/src/problem_description.cpp: TotalTimeTermInfo::hatch"]}
{"id": "C101", "title": "A Cartesian position constraint bounds exactly the weighted components", "statement": "CartPosConstraint is constructed exactly for known links of which one moves, six coefficients and six bounds; its rows are the components with non-negligible coefficients, ranges split in two or kept as asked, and getValues() is within getBounds() exactly when each such component of the pose error is within the bound given for it.", "quantifier": "every coefficient and bound vector, either handling of ranges, every joint vector", "why_tests_cant": "all selections of components and bound types at once", "anchors": ["trajopt_ifopt/src/constraints/cartesian_position_constraint.cpp: CartPosConstraint, getValues, getBounds"]}
{"id": "C102", "title": "The Jacobian of a Cartesian position constraint is the difference quotient of its values", "statement": "getJacobian() has one row per value whose entry at the column of joint k is the forward difference quotient of that value in joint k, with numeric or analytic differentiation.", "quantifier": "every selection, joint vector, active frame and differentiation flag", "why_tests_cant": "tests use full selections and the default flag", "anchors": ["trajopt_ifopt/src/constraints/cartesian_position_constraint.cpp: calcJacobianBlock"]}
{"id": "C103", "title": "The line constraint measures to the closest point of the segment", "statement": "getLinePoint() is the point of the segment between the two target poses closest to the source position, with the orientation interpolated at that point.", "quantifier": "every segment, source position and target frame", "why_tests_cant": "tests use one axis-aligned segment of unit length", "anchors": ["trajopt_ifopt/src/constraints/cartesian_line_constraint.cpp: getLinePoint"]}
{"id": "C104", "title": "The Jacobian of a line constraint is the difference quotient of its values", "statement": "getJacobian() exists for every accepted set of components and row i is the forward difference quotient of value i.", "quantifier": "every subset and order of components, every joint vector", "why_tests_cant": "tests use all six components in order", "anchors": ["trajopt_ifopt/src/constraints/cartesian_line_constraint.cpp: calcJacobianBlock, calcValues"]}
{"id": "C105", "title": "A line constraint asks for zero error in its components", "statement": "CartLineConstraint is constructed exactly for known links, different ends and one to six components with as many coefficients; its bounds hold exactly when all values are zero; setBounds accepts as many bounds as there are rows.", "quantifier": "every subset of components", "why_tests_cant": "tests use all six components", "anchors": ["trajopt_ifopt/src/constraints/cartesian_line_constraint.cpp: CartLineConstraint, getBounds, setBounds"]}
{"id": "C106", "title": "The inverse kinematics constraint measures to the nearest solution", "statement": "getValues() is the difference to a solution of inverse kinematics nearest to the joint values, zero exactly at solutions, and never satisfied when there is none; getJacobian() is its derivative where the nearest solution is unique.", "quantifier": "every set of solutions and joint vector", "why_tests_cant": "a minimum over all solutions and a derivative at all points", "anchors": ["trajopt_ifopt/src/constraints/inverse_kinematics_constraint.cpp: getValues, getJacobian"]}
{"id": "C107", "title": "The numerical discrete collision constraint differentiates the error of each pair of shapes", "statement": "After update(), getValues() row i is the greatest contact error of the i-th pair of shapes and minus the buffer beyond the last; the entry of getJacobian() in row i at joint j is the forward difference quotient in joint j of the error of that same pair, which counts as minus the buffer where the pair is not in contact.", "quantifier": "every contact map, joint vector, number of rows and step", "why_tests_cant": "all orders of the pairs, and pairs appearing or vanishing under the perturbation", "anchors": ["trajopt_ifopt/src/constraints/collision/discrete_collision_numerical_constraint.cpp: calcValues, calcJacobianBlock"]}
{"id": "C108", "title": "The numerical continuous collision constraint differentiates in both states", "statement": "getValues() row i is the error of the i-th pair at the ends that are not fixed, and the entry of getJacobian() in row i at joint j of either state is the forward difference quotient of the error of that pair in joint j of that state.", "quantifier": "every evaluator, pair of states, fixed flags, number of rows and step", "why_tests_cant": "tests compare only the column of one state near equal states", "anchors": ["trajopt_ifopt/src/constraints/collision/continuous_collision_numerical_constraint.cpp: getValues, getJacobian"]}
{"id": "C109", "title": "The numerical collision constraints check their arguments and keep their sizes", "statement": "The constructors accept exactly existing, equally long, non-empty variables of which one is free and at least one row, and throw otherwise; values, bounds and Jacobian always have the same number of rows.", "quantifier": "every argument and later setBounds", "why_tests_cant": "null pointers and changed bounds are not tested", "anchors": ["trajopt_ifopt/src/constraints/collision/discrete_collision_numerical_constraint.cpp: DiscreteCollisionNumericalConstraint, setBounds", "trajopt_ifopt/src/constraints/collision/continuous_collision_numerical_constraint.cpp: ContinuousCollisionNumericalConstraint, setBounds"]}
{"id": "C110", "title": "Every QP handed to OSQP is the newest one", "statement": "Over any sequence of convexifications and trust region steps, and whatever updates in place the library refuses, no assertion fails and each solve of OSQP is one of the Hessian, gradient and constraint matrix of the last convexification with the bounds of the last trust region update.", "quantifier": "every sequence of QPs, resizes, refused updates, failed setups and failed solves", "why_tests_cant": "unbounded sequences with failures of the library at every position", "anchors": ["trajopt_optimizers/trajopt_sqp/src/osqp_eigen_solver.cpp: init, clear, solve, updateHessianMatrix, updateGradient, updateBounds, updateLinearConstraintsMatrix", "trajopt_optimizers/trajopt_sqp/src/trust_region_sqp_solver.cpp: stepSQPSolver, runTrustRegionLoop"]}
{"id": "C111", "title": "OSQP is given an equivalent QP", "statement": "With OSQP's convention (half the quadratic form) the objective given to the library equals the objective of the QP problem at every point, and a point whose row values stay within 1e30 meets the bounds given to the library exactly when it meets those of the problem.", "quantifier": "every QP and point", "why_tests_cant": "a universally quantified equality", "anchors": ["trajopt_optimizers/trajopt_sqp/src/osqp_eigen_solver.cpp: updateHessianMatrix, updateGradient, updateBounds", "trajopt_optimizers/trajopt_sqp/src/trajopt_qp_problem.cpp: convexify"]}
{"id": "C112", "title": "The warm start is a feasible point of the QP", "statement": "setWarmStart() starts OSQP at the current variables with non-negative slack variables that make the rows of the QP satisfied and add up to the linearised constraint violations.", "quantifier": "every problem and current point", "why_tests_cant": "a wrong start changes only the number of iterations of OSQP", "anchors": ["trajopt_optimizers/trajopt_sqp/src/osqp_eigen_solver.cpp: setWarmStart"]}
{"id": "C113", "title": "A collision evaluator checks the states it is asked about, whatever it was asked before", "statement": "In any sequence of calls, each contact test of a call has the manipulator's links at the interpolated states of that call's motion, other moving links where the first state puts them and the remaining links unmoved; the contacts returned are those of a new evaluator, and those of the other library.", "quantifier": "every sequence of calls, kinematics, number of links and contact test", "why_tests_cant": "stale transform caches only show after particular sequences of calls", "anchors": ["trajopt_ifopt/src/constraints/collision/discrete_collision_evaluators.cpp: calcCollisionsHelper", "trajopt_ifopt/src/constraints/collision/continuous_collision_evaluators.cpp: calcCollisionsHelper", "trajopt/src/collision_terms.cpp: CalcCollisions"]}
{"id": "C114", "title": "Contacts are recorded once, with their time in the motion, unless they lie at a fixed end", "statement": "For each pair of links the results hold the contacts of the successive tests that are within margin plus buffer, of pairs with a coefficient and not at a fixed end of the motion, each with its time as a fraction of the whole motion.", "quantifier": "every list of tests and their contacts, all flags", "why_tests_cant": "all subdivisions of motions and positions of contacts", "anchors": ["trajopt_ifopt/src/constraints/collision/discrete_collision_evaluators.cpp: calcCollisionsHelper", "trajopt_ifopt/src/constraints/collision/continuous_collision_evaluators.cpp: calcCollisionsHelper", "trajopt/src/collision_terms.cpp: CalcCollisions", "trajopt_common/src/collision_utils.cpp: removeInvalidContactResults"]}
{"id": "C115", "title": "The gradient of a contact is a derivative of the contact point", "statement": "For each moving link of a contact, scale times gradient for either end state is the partial derivative, with respect to that state's joints, of the position of the contact point along the contact normal.", "quantifier": "every kinematics with a correct Jacobian, every motion, contact and time", "why_tests_cant": "a derivative at all points; tests use short motions", "anchors": ["trajopt_common/src/collision_utils.cpp: calcGradient, getGradient", "trajopt/src/collision_terms.cpp: CollisionEvaluator::GetGradient"]}
{"id": "C116", "title": "Check types select the evaluator they name", "statement": "Every check type except NONE yields evaluators that accept it, and CONTINUOUS checks each motion by one cast.", "quantifier": "every check type, range of steps and set of fixed steps", "why_tests_cant": "combinations of types, steps and motions", "anchors": ["trajopt/src/problem_description.cpp: CollisionTermInfo::hatch", "trajopt/src/collision_terms.cpp: SingleTimestepCollisionEvaluator, DiscreteCollisionEvaluator, CastCollisionEvaluator", "trajopt_ifopt/src/constraints/collision/continuous_collision_evaluators.cpp: LVSContinuousCollisionEvaluator, LVSDiscreteCollisionEvaluator"]}
{"id": "C117", "title": "JSON values are read as what they are, or refused", "statement": "fromJson() returns the integer, number, text, flag or list that the document holds, integers within the range of int and lists with all their elements in order; a value of another type is refused.", "quantifier": "every JSON value", "why_tests_cant": "all combinations of expected and actual type, and all ranges", "anchors": ["trajopt/src/json_marshal.cpp: fromJson", "trajopt/include/trajopt/json_marshal.hpp: fromJsonArray, childFromJson"]}
{"id": "C118", "title": "The sections of a JSON problem say what they seem to say", "statement": "Each member of basic_info, opt_info and init_info lands in the field of its name, absent optional ones leave the default, absent required or unknown ones are refused, in whatever order they are written; the initial trajectory is the one described and the optimizer runs with the parameters given.", "quantifier": "every set of members, values, number of steps and joints", "why_tests_cant": "two to the number of optional members, times all values", "anchors": ["trajopt/src/problem_description.cpp: readBasicInfo, readOptInfo, readInitInfo, OptimizeProblem, generateInitTraj", "trajopt/src/json_marshal.cpp: fromJson", "trajopt/include/trajopt/json_marshal.hpp: fromJsonArray, childFromJson"]}
{"id": "C119", "title": "The terms of a JSON problem are those listed, and accepted only if they fit", "statement": "Costs and constraints are read in order, each with the kind its type names, its name, its parameters or their defaults; unknown types and unknown parameters are refused, accepted terms refer to existing steps and links, offsets are rigid motions, time is used exactly when some section says so, and the shipped documents are accepted.", "quantifier": "every document, number of steps and manipulator", "why_tests_cant": "unboundedly many documents; some shipped ones are not used by any test", "anchors": ["trajopt/src/problem_description.cpp: ProblemConstructionInfo::fromJson, readCosts, readConstraints, RegisterMakers, CartPoseTermInfo::fromJson, DynamicCartPoseTermInfo::fromJson, CartVelTermInfo::fromJson, JointPosTermInfo::fromJson, JointVelTermInfo::fromJson, JointAccTermInfo::fromJson, JointJerkTermInfo::fromJson, CollisionTermInfo::fromJson, TotalTimeTermInfo::fromJson", "trajopt_common/data/config"]}
{"id": "C120", "title": "A collision configuration written to YAML or cereal is read back as it was", "statement": "Whatever setters were called and in whatever order the table is iterated, encode followed by decode, and save followed by load, give an object on which every getter returns the same; in hand-written documents absent members keep their value, the last entry of a pair counts in either order of names, and malformed documents are refused.", "quantifier": "every sequence of setter calls, order of iteration and document", "why_tests_cant": "iteration order of hash maps varies; unboundedly many tables and documents", "anchors": ["trajopt_common/include/trajopt_common/yaml_extensions.h: convert<CollisionCoeffData>, convert<TrajOptCollisionConfig>", "trajopt_common/include/trajopt_common/cereal_serialization.h: serialize"]}
{"id": "C121", "title": "Comparing collision configurations means what it says", "statement": "operator== of CollisionCoeffData and TrajOptCollisionConfig holds exactly when settings agree within the documented tolerance and the same pairs are zero, is an equivalence, holds between an object and what is read back from its serialisation, and equal objects give the same coefficients up to the tolerance.", "quantifier": "every pair of objects made by setter calls", "why_tests_cant": "all pairs of tables and values near the tolerance", "anchors": ["trajopt_common/src/collision_types.cpp: CollisionCoeffData::operator==, TrajOptCollisionConfig::operator=="]}
{"id": "C122", "title": "addTwist moves a pose along a twist", "statement": "addTwist(t, twist, dt) is the pose that a body at t reaches after moving for dt with that linear and angular velocity: a rigid motion, turned about the angular velocity by its length times dt, every point of the body moving with v + w x r; steps along one twist add up and no step changes nothing; used in the analytic Jacobian of the pose constraint it gives the derivative of the rotational error.", "quantifier": "every pose, twist, step and point of the body", "why_tests_cant": "a statement about derivatives at all times; the analytic Jacobian is off by default and tested with unturned frames only", "anchors": ["trajopt_common/src/utils.cpp: addTwist", "trajopt_ifopt/src/constraints/cartesian_position_constraint.cpp: calcJacobianBlock"]}
{"id": "C123", "title": "The log files are tables whose columns hold what their headings say", "statement": "Each of the four log files of BasicTrustRegionSQP is a heading followed by one row for each solved subproblem, each row as wide as the heading, each field the quantity named above it, for the cost, constraint or variable named above it; a file that cannot be opened is left out.", "quantifier": "every number of iterations, costs, constraints and variables, all values and names", "why_tests_cant": "the files are not read by any test", "anchors": ["trajopt_sco/src/optimizers.cpp: BasicTrustRegionSQPResults::writeSolver, writeVars, writeCosts, writeConstraints, BasicTrustRegionSQP::optimize"]}
{"id": "C124", "title": "The trajectory file has a heading with one label for each column", "statement": "WriteCallback writes a heading and, for each call and step, a row in which every field is the quantity its label names: joints, pose, costs, constraint violations.", "quantifier": "every trajectory, set of links, costs and constraints", "why_tests_cant": "the file is not read by any test", "anchors": ["trajopt/src/file_write_callback.cpp: WriteCallback, WriteFile"]}
{"id": "C125", "title": "Observers of a variable set are told of every change", "statement": "An observer made for a NodesVariables is registered with it; each setVariables() calls each registered observer once, in order of registration, after all variables have their new values.", "quantifier": "every set of nodes, observers and values", "why_tests_cant": "no test makes an observer", "anchors": ["trajopt_ifopt/src/variable_sets/nodes_observer.cpp: NodesObserver::NodesObserver", "trajopt_ifopt/src/variable_sets/nodes_variables.cpp: setVariables, addObserver, updateObservers"]}
{"id": "C126", "title": "The Gurobi backend holds the program that was built", "statement": "After any sequence of calls of the Model interface, GurobiModel has not aborted and Gurobi holds one column for each variable not removed, with the bounds last set, one row for each constraint not removed, the quadratic constraints and the objective last set; every row and the objective say about the columns what the expressions say about the variables; getVarValues returns each variable's own value.", "quantifier": "every sequence of calls, every number of variables, constraints, removals and updates", "why_tests_cant": "Gurobi is not available in the test environment; needs all interleavings of deferred additions and removals", "anchors": ["trajopt_sco/src/gurobi_interface.cpp: addVar, addEqCnt, addIneqCnt, addIneqCnt(QuadExpr), removeVars, removeCnts, update, setVarBounds, getVarValues, optimize, setObjective"]}
{"id": "C127", "title": "The passes of the SQP leave nothing behind in the Gurobi model", "statement": "However many passes BasicTrustRegionSQP::optimize has made, no call aborts, and at each QP Gurobi holds exactly the problem's own variables and constraints and those of the current pass, with the bounds just set and the current objective.", "quantifier": "every problem, every number of passes, auxiliary variables, constraints and QPs per pass", "why_tests_cant": "unbounded number of passes with indices that shift at each removal", "anchors": ["trajopt_sco/src/optimizers.cpp: BasicTrustRegionSQP::optimize", "trajopt_sco/src/modeling.cpp: ConvexObjective, ConvexConstraints, OptProb", "trajopt_sco/src/gurobi_interface.cpp"]}
{"id": "C128", "title": "The status and values of a convex solve mean what they say about the problem built", "statement": "If the solver under the OSQP, qpOASES or BPMPD backend answers correctly about the matrices it is handed, then optimize() after any sequence of calls neither aborts nor throws; with CVX_SOLVED getVarValues returns, for every variable not removed, a point that satisfies every constraint and bound of the problem built and whose objective is best, within the solver's accuracy; CVX_INFEASIBLE is only returned when the problem has no solution; and a problem that has one is solved.", "quantifier": "every sequence of calls of the Model interface, every problem size, every solver meeting the contract", "why_tests_cant": "tests solve a handful of problems and compare the values with known ones", "anchors": ["trajopt_sco/src/osqp_interface.cpp: OSQPModel::optimize, createOrUpdateSolver", "trajopt_sco/src/qpoases_interface.cpp: qpOASESModel::optimize, updateSolver, createSolver", "trajopt_sco/src/bpmpd_interface.cpp: BPMPDModel::optimize"]}
{"id": "C129", "title": "CVX_INFEASIBLE means that no point satisfies the constraints, and a problem keeps its status", "statement": "optimize() returns CVX_INFEASIBLE only when no point satisfies the constraints and bounds, and solving the same problem again gives the same status.", "quantifier": "every sequence of calls, every problem, every solver meeting the contract", "why_tests_cant": "needs unbounded problems and hot starts that fail", "anchors": ["trajopt_sco/src/osqp_interface.cpp: OSQPModel::optimize", "trajopt_sco/src/qpoases_interface.cpp: qpOASESModel::optimize", "trajopt_sco/src/bpmpd_interface.cpp: BPMPDModel::optimize"]}
{"id": "C130", "title": "Every QP of every pass of the SQP is the one meant, and its values are read off correctly", "statement": "However many passes BasicTrustRegionSQP::optimize has made through OSQP, qpOASES or BPMPD, no call aborts; at each QP the problem solved consists of the problem's own variables and constraints and those of the current pass, with the bounds just set and the current objective; with CVX_SOLVED getVarValues(getVars()) holds the values of the problem's variables, in order, followed by those of the pass, and they solve that QP within the solver's accuracy; CVX_INFEASIBLE is only returned if it has no solution.", "quantifier": "every problem, every number of passes, auxiliary variables, constraints and QPs per pass; every solver meeting the contract of C128", "why_tests_cant": "unbounded number of passes; indices shift at each removal; tests only look at the final trajectory", "anchors": ["trajopt_sco/src/optimizers.cpp: BasicTrustRegionSQP::optimize", "trajopt_sco/src/modeling.cpp: ConvexObjective, ConvexConstraints, OptProb", "trajopt_sco/src/solver_interface.cpp: Model::addVar", "trajopt_sco/src/osqp_interface.cpp", "trajopt_sco/src/qpoases_interface.cpp", "trajopt_sco/src/bpmpd_interface.cpp"]}
{"id": "C131", "title": "Each QP of the SQP finds the best point of the convexified problem in the trust region", "statement": "Whatever costs and constraints Cost::convex and Constraint::convex have returned (affine, quadratic, hinge, absolute value, l1, squared), and however many passes were made before: with CVX_SOLVED the first entries of getVarValues(getVars()) are a point inside the trust region that satisfies the problem's linear constraints, and among all such points it minimises the sum of the convexified costs, with hinges and absolute values taken exactly, and of the constraint violations times the merit coefficients, within the solver's accuracy times stated weights; CVX_INFEASIBLE is only returned if there is no such point or the sum decreases without end; if there is a best one, it is found.", "quantifier": "every problem, every number of passes, every list of convexified costs and constraints without addMax, every solver meeting the contract of C128", "why_tests_cant": "the auxiliary variables and rows differ from pass to pass; tests only look at the final trajectory", "anchors": ["trajopt_sco/src/optimizers.cpp: convexifyCosts, convexifyConstraints, cntsToCosts, BasicTrustRegionSQP::optimize", "trajopt_sco/src/modeling.cpp: ConvexObjective, ConvexConstraints", "trajopt_sco/src/osqp_interface.cpp", "trajopt_sco/src/qpoases_interface.cpp", "trajopt_sco/src/bpmpd_interface.cpp"]}
{"id": "C132", "title": "The merit the model promises is that of the convexified problem", "statement": "The model's costs and constraint violations that BasicTrustRegionSQPResults::update reads off a solved QP add up, with the merit coefficients, to a value that is not below the convexified merit at the new point and not above it at any other point of the trust region that satisfies the linear constraints, within the solver's accuracy times stated weights; so approx_merit_improve is not negative when the convexification is exact at a current point that satisfies the linear constraints.", "quantifier": "every problem, every number of passes, every list of convexified costs and constraints without addMax, every solver meeting the contract of C128", "why_tests_cant": "the promised improvement is internal; its sign decides on convergence and is only logged", "anchors": ["trajopt_sco/src/optimizers.cpp: BasicTrustRegionSQPResults::update, evaluateModelCosts, evaluateModelCntViols, setTrustBoxConstraints", "trajopt_sco/src/modeling.cpp: ConvexObjective::value, ConvexConstraints::violation"]}
{"id": "C133", "title": "A whole run of the SQP: no abort, ends, keeps limits, and stops only where little is left to gain", "statement": "BasicTrustRegionSQP::optimize, with its convex models built and solved through OSQPModel, qpOASESModel or BPMPDModel, never hits undefined behaviour and ends; the point it returns is either what getClosestFeasiblePoint made of the start or within variable limits and linear constraints up to the solver's tolerance; if it ends after a solved QP whose step it did not take, the status is OPT_CONVERGED, the violations are below tolerance, and nowhere in the trust region is the convexified merit function lower than the merit at that point by more than the improvement thresholds and solver tolerances; for convex problems this bounds the distance to the best merit anywhere; OPT_CONVERGED implies the linear constraints hold.", "quantifier": "every problem (values and convexifications arbitrary functions of x), every sequence of answers of an honest solver, all parameters, callbacks and clocks, any length of run", "why_tests_cant": "the statement is about the whole history of a run: which QPs were built, in which order, and with what solver answers", "anchors": ["trajopt_sco/src/optimizers.cpp: BasicTrustRegionSQP::optimize", "trajopt_sco/src/optimizers.cpp: setTrustBoxConstraints", "trajopt_sco/src/modeling.cpp: OptProb::getClosestFeasiblePoint", "trajopt_sco/src/osqp_interface.cpp"]}
{"id": "C134", "title": "A whole run of TrustRegionSQPSolver through OSQP: no abort, ends, reports what holds, keeps limits, and stops only where little is left to gain", "statement": "TrustRegionSQPSolver::solve, with a TrajOptQPProblem it convexifies and an OSQPEigenSolver that solves its QPs, never hits undefined behaviour, an exception or a failed assertion; with a shrink ratio below one it ends; the costs, violations and merit it reports belong to the variables it leaves in the problem, and kConverged means every constraint set is violated by less than the tolerance; the variables end where they started or within their bounds up to the tolerance of the library; if the last thing it did was to solve a QP without taking the step or shrinking the box, then the status is kConverged and nowhere in the trust region is the convexified merit function lower than the merit there by more than the improvement thresholds and the tolerances of library and code; for a convex merit function not overestimated by its convexification this bounds the distance to the best merit anywhere within the bounds.", "quantifier": "every problem made of constraint and cost sets (arbitrary functions of the variables), every sequence of answers of a library that accepts new bounds (and, where said, solves what it claims to have solved), all parameters, callbacks and clocks, any length of run", "why_tests_cant": "the statement is about the whole history of a run: which QPs were built from which variables, what the solver held at each solve, and what was reported", "anchors": ["trajopt_optimizers/trajopt_sqp/src/trust_region_sqp_solver.cpp: TrustRegionSQPSolver::solve", "trajopt_optimizers/trajopt_sqp/src/trajopt_qp_problem.cpp: TrajOptQPProblem::Implementation::convexify", "trajopt_optimizers/trajopt_sqp/src/osqp_eigen_solver.cpp: OSQPEigenSolver::solve"]}
{"id": "C135", "title": "Solving a joint space problem: constraints are met on convergence, and the result is nearly the best there is", "statement": "Take any list of joint position, velocity, acceleration and jerk terms of trajopt_ifopt (ranges split into two inequalities, the default), each added to a TrajOptQPProblem as a constraint or as a squared, absolute or hinge cost, and solve it with TrustRegionSQPSolver through OSQP. Terms with positive coefficients of fitting sizes, and bounds that fit the cost type, are accepted. The run never aborts and ends. The violations it reports are, per constraint, the sums over joints and positions of the distances of the finite differences from their targets; kConverged means that each joint of each constraint is closer than the tolerance to what was asked for. Joints end within their limits up to the tolerance of the library. If the last QP found no better step, then no trajectory within the limits has a merit better by more than a bound made of the thresholds, the tolerances and the coefficients that the reported merit ignores; with unit coefficients the last part is zero.", "quantifier": "every list of joint terms over any number of joints and positions, every start, every library, all parameters, callbacks and clocks", "why_tests_cant": "links what a user asks of a trajectory with the outcome of a whole optimization; tests run a few trajectories and compare with a tolerance", "anchors": ["trajopt_ifopt/src/constraints/joint_position_constraint.cpp: JointPosConstraint", "trajopt_ifopt/src/constraints/joint_velocity_constraint.cpp: JointVelConstraint", "trajopt_ifopt/src/constraints/joint_acceleration_constraint.cpp: JointAccelConstraint", "trajopt_ifopt/src/constraints/joint_jerk_constraint.cpp: JointJerkConstraint", "trajopt_optimizers/trajopt_sqp/src/trajopt_qp_problem.cpp: addConstraintSet, addCostSet", "trajopt_optimizers/trajopt_sqp/src/trust_region_sqp_solver.cpp: TrustRegionSQPSolver::solve"]}
{"id": "C136", "title": "ConstructProblem followed by OptimizeProblem: what is asked for is what is optimized, and how good the answer is", "statement": "Take any joint space planning problem: a number of steps, joint limits, an initial trajectory of one of the three kinds, fixed steps and joints, and any lists of joint position, velocity, acceleration and jerk terms as costs and constraints. If it makes sense, ConstructProblem succeeds, with one variable per step and joint within that joint's limits, linear constraints holding exactly where the trajectory is at its initial values at fixed steps and joints, the costs in their order and the constraints, equalities first. OptimizeProblem, through OSQP, qpOASES or BPMPD, never aborts and ends. The trajectory returned has a value for each step and joint, within limits and fixed values up to the tolerance of the library, or is the initial one moved below its upper limits. The costs and violations returned are those of that trajectory: for each term the sum over its steps and joints of coefficient times squared deviation, or of the excess over the tolerances. OPT_CONVERGED bounds each of these at each step and joint. Without equality constraint terms, if the last QP was solved without taking the step, no trajectory that obeys limits, fixed values and constraints has costs lower by more than a bound made of thresholds, tolerances and the distance relative to the trust region. OPT_CONVERGED does not bound the deviation of an equality term by cnt_tolerance, nor keep fixed steps at their values.", "quantifier": "every number of steps and joints, every list of joint terms, initial trajectory, fixed steps and joints; every library that is honest about its results; all callbacks and clocks", "why_tests_cant": "links what a user writes down with the outcome of a whole optimization; tests run a few robots and look at the final cost", "anchors": ["trajopt/src/problem_description.cpp: ConstructProblem, OptimizeProblem, TrajOptResult", "trajopt/src/problem_description.cpp: JointPosTermInfo::hatch, JointVelTermInfo::hatch, JointAccTermInfo::hatch, JointJerkTermInfo::hatch", "trajopt/src/trajectory_costs.cpp", "trajopt_sco/src/optimizers.cpp: BasicTrustRegionSQP::optimize", "trajopt_sco/src/modeling.cpp: OptProb"]}
{"id": "C137", "title": "From a JSON document to the trajectory: what the document says is what is constructed and optimized", "statement": "Take any JSON document that describes a joint space problem without time: basic_info, an initial trajectory of one of the three kinds, and any lists of joint terms as costs and constraints. ConstructProblem(root, env) gives the problem of exactly the plan described, with the joint limits and the current state of the manipulator named and the solver createModel picks. The initial trajectory is the one init_info describes. If the plan makes sense and the solver is OSQP, qpOASES or BPMPD, optimizing ends with a trajectory of the size asked for, within the joint limits and fixed values up to the tolerance of the library or the initial one moved below its limits, with its costs and violations, and OPT_CONVERGED bounds the violation of every constraint in the document. Documents that contradict themselves on time are refused. The tolerance in opt_info is not obeyed.", "quantifier": "every document, environment, default parameters, set of available solvers; every library that is honest about its results; all callbacks and clocks", "why_tests_cant": "links a document with the outcome of a whole optimization; tests read a few shipped documents", "anchors": ["trajopt/src/problem_description.cpp: ConstructProblem, ProblemConstructionInfo::fromJson, OptimizeProblem", "trajopt/src/json_marshal.cpp", "trajopt_sco/src/solver_interface.cpp: createModel"]}
{"id": "C138", "title": "The plot callbacks show the current solution", "statement": "PlotCosts and PlotProb clear the view, then draw what the costs and constraints ask for, then show a trajectory with one state for each step, in which each joint has its value in the solution, then wait; without time variables both make the same calls. Pose terms show the frame moved, the frame aimed at and an arrow between their origins. Collision terms show all contacts, and for each link of a contact that moves an arrow from the contact point to where that point of the link is after a separating step of the joints. The plot callbacks of trajopt_sqp show the current values of their variables or poses and never stop the solver.", "quantifier": "every number of steps and joints, all lists of terms, all solution vectors, kinematics and contacts", "why_tests_cant": "what is drawn is looked at by a person; no test inspects the calls", "anchors": ["trajopt/src/plot_callback.cpp: PlotCosts, PlotProb", "trajopt/include/trajopt/typedefs.hpp: TrajOptCostFromErrFunc::Plot, TrajOptConstraintFromErrFunc::Plot", "trajopt/src/kinematic_terms.cpp: CartPoseErrCalculator::Plot, DynamicCartPoseErrCalculator::Plot", "trajopt/src/collision_terms.cpp: SingleTimestepCollisionEvaluator::Plot, DiscreteCollisionEvaluator::Plot, CastCollisionEvaluator::Plot", "trajopt_ifopt/src/utils/trajopt_utils.cpp: toTrajArray, toJointTrajectory", "trajopt_optimizers/trajopt_sqp/src/callbacks"]}
{"id": "C139", "title": "Planning with time", "statement": "With time variables, ConstructProblem gives one variable for each joint and step and one for the inverse of each time step, within their limits; a velocity term with time gives one cost or constraint for each joint, about the difference of the joint values over the time of the step, and a total time term is about the sum of the times of all steps but the first. OptimizeProblem ends, without an exception, with a trajectory whose time steps are positive and finite and whose values are within their limits up to the solver's tolerance, or that is where the solver started; the costs and violations it reports are those of that trajectory. With OPT_CONVERGED all velocities, the total time and the other joint terms are within their tolerances up to cnt_tolerance divided by the coefficient.", "quantifier": "every number of steps and joints, all limits, initial trajectories, fixed steps and joints, all lists of joint terms with and without time and of total time terms, every solver that keeps its promises", "why_tests_cant": "tests run a few timed problems with one solver; the terms are not linear, so what holds at the point returned does not follow from the QPs solved", "anchors": ["trajopt/src/problem_description.cpp: ConstructProblem, OptimizeProblem, JointVelTermInfo::hatch, TotalTimeTermInfo::hatch", "trajopt/src/kinematic_terms.cpp: JointVelErrCalculator, JointVelJacCalculator, TimeCostCalculator, TimeCostJacCalculator", "trajopt_sco/src/modeling_utils.cpp: CostFromErrFunc, ConstraintFromErrFunc", "trajopt_sco/src/optimizers.cpp: BasicTrustRegionSQP::optimize"]}
{"id": "C140", "title": "From a document to a trajectory with time", "statement": "ConstructProblem, given a JSON document about joint terms and total time terms of which at least one uses time, gives the problem of the plan the document describes: its steps, joint limits, dt_lower_lim and dt_upper_lim, initial trajectory with init_info's dt, fixed steps and joints and all its terms in order, whether or not basic_info says that time is used; OptimizeProblem on it ends with a trajectory for which all of C139 holds. Documents in which basic_info uses time but no term does, or in which an acceleration or jerk term does, are refused.", "quantifier": "every document that says such a plan (members in any order, defaults left out or not, words in any case), every environment, every choice of solver, every solver that keeps its promises", "why_tests_cant": "tests read a few documents; whether use_time of the terms and of basic_info, the limits and dt reach the right place of the problem in every combination is not seen from examples", "anchors": ["trajopt/src/problem_description.cpp: ProblemConstructionInfo::fromJson, ConstructProblem, OptimizeProblem, TotalTimeTermInfo::fromJson, JointVelTermInfo::fromJson", "trajopt/include/trajopt/json_marshal.hpp"]}
{"id": "C141", "title": "Volume, inside, centre and box of a triangle mesh", "statement": "Mesh::ComputeVolume of a closed mesh is the signed volume it encloses, whatever reference point is used and whatever unused points there are; on any mesh it is multiplied by the determinant under an affine map, changes sign when the triangles are turned over, and adds up when closed meshes are put into one. IsInside says whether a point is on or below the plane of every triangle: the set is convex, is the tetrahedron for a tetrahedron, and is empty for a closed mesh of negative volume. Clip splits the points by the plane, keeping order, those on it going to both sides. ComputeCenter gives the mean over the surface and the tight box, and that mean is in the box and, for a convex mesh, inside the mesh. ComputeDiagBB gives the diagonal of the tight box, which no distance of two points exceeds.", "quantifier": "every mesh (any number of points and triangles) whose triangles refer to its points, every point, plane and affine map", "why_tests_cant": "tests try a few meshes; independence of the reference point, convexity and the bounds hold for all meshes only by proof", "anchors": ["trajopt_ext/vhacd/src/vhacdMesh.cpp: ComputeVolume, IsInside, Clip, ComputeCenter, ComputeDiagBB", "trajopt_ext/vhacd/src/FloatMath.inl: fm_computeCentroid, triangle_area_3d", "trajopt_ext/vhacd/include/vhacd/inc/vhacdVector.inl: ComputeVolume4"]}
{"id": "C142", "title": "The array with a place in the object is a sequence", "statement": "Whatever is done with a new SArray (PushBack, PushBack of an own element with room, PopBack, Resize, Clear, Find, Insert, Erase, Size, reading and writing elements), as long as nothing is out of bounds or unwritten, every operation returns and the array has exactly the elements the same operations give a plain sequence, through every move between the N places in the object and the heap. Assignment and copies give an array with the same elements that goes on as a sequence of its own. Clear frees the heap block, and what follows is what would follow with a new array.", "quantifier": "every N > 0, every sequence of operations of any length, every element type and equality", "why_tests_cant": "tests run a few short sequences; the bugs are at the moves between object and heap and depend on the exact history of sizes", "anchors": ["trajopt_ext/vhacd/include/vhacd/inc/vhacdSArray.h: SArray<T, N>"]}
{"id": "C143", "title": "The circular list is a circular sequence and leaks nothing", "statement": "Whatever is done with a new CircularList (Add, Next, Prev, Delete, Delete of one of its elements, Clear, GetData, GetSize, IsEmpty), in whatever memory, every operation returns and does to the circular sequence what it should: Add puts the new element after the head and makes it the head, Delete takes the head out and goes on to the next, and so on. Nothing else in memory changes, and of what was allocated exactly the elements of the list are left; after Clear, which is the destructor, nothing is. Assignment gives the left list the sequence of the right one with the same head, in nodes of its own, so that nothing done with it afterwards shows in the right one.", "quantifier": "every memory, every sequence of operations of any length on one list, and every two lists built by such sequences for assignment", "why_tests_cant": "tests look at results for a few lists; that no link is wrong, no element is lost and no other memory is touched for all histories needs a proof over the memory", "anchors": ["trajopt_ext/vhacd/include/vhacd/inc/vhacdCircularList.h: CircularList, CircularListElement", "trajopt_ext/vhacd/include/vhacd/inc/vhacdCircularList.inl: Delete, Add, Next, Prev, copy constructor, operator="]}
{"id": "C144", "title": "Function costs with a full Hessian are modelled by the positive part of their second-order expansion", "statement": "For CostFromFunc with a full Hessian, the convexification at x is f(x) plus the forward differences times the step d plus half the sum of max(l,0)(v.d)^2 over the pairs of eigenvalues l and eigenvectors v the solver returns, whatever these are. So it equals the function at x, never lies below its tangent plane and is convex. If the pairs decompose the numerical Hessian, it is nowhere below the second-order expansion and equal to it if no eigenvalue is negative. For quadratic functions the numerical Hessian is the Hessian, and the model of a convex one is off by exactly half the step size of the differences times the trace-weighted step.", "quantifier": "every function, step size of the differences, result of the eigenvalue solver, set of variables, expansion point and evaluation point", "why_tests_cant": "algebraic identity over all functions and decompositions in any number of variables; tests check single functions to a tolerance that hides the error of the forward differences", "anchors": ["trajopt_sco/src/modeling_utils.cpp: CostFromFunc::convex", "trajopt_sco/src/num_diff.cpp: calcGradHess, calcForwardNumGrad, calcForwardNumJac"]}
{"id": "C145", "title": "The array of the convex hull sorts and finds", "statement": "For every strict weak order, btAlignedObjectArray::quickSort and heapSort return, never read or write outside the array, keep the elements and leave them in order. findBinarySearch in a sorted array returns the place of an element equivalent to the key, or the size if and only if there is none. remove takes out exactly the first element equal to the key and leaves an array without one alone. The comparison the convex hull sorts its points with is a strict weak order, so the points are sorted by y, then x, then z.", "quantifier": "every element type, every array of any length, every strict weak order and every key", "why_tests_cant": "the partition with two running indices and the heap with a hole are right or wrong at the borders of particular inputs; sampling arrays does not cover all of them", "anchors": ["trajopt_ext/vhacd/include/vhacd/inc/btAlignedObjectArray.h: quickSortInternal, quickSort, downHeap, heapSort, swap, findBinarySearch, findLinearSearch, remove", "trajopt_ext/vhacd/src/btConvexHullComputer.cpp: pointCmp"]}
{"id": "C146", "title": "The 128-bit integers of the convex hull are exact", "statement": "The product of two 64-bit words in halves is exact in 128 bits, and that of two 128-bit numbers in 256. Sums, differences and ++ are those modulo 2^128 and exact for signed values that have room; += and + agree. The product of two int64_t, and of an Int128 and an int64_t that has room, is exact. getSign is the sign, ucmp and operator< order the numbers as unsigned ones. Changing the sign is undefined exactly for the numbers with the low word 2^63, and the product of two int64_t exactly if one is the least or the product is negative with that low word.", "quantifier": "all 64-bit words and all pairs of them", "why_tests_cant": "2^128 and more inputs; carries between the halves go wrong for very few of them", "anchors": ["trajopt_ext/vhacd/src/btConvexHullComputer.cpp: btConvexHullInternal::Int128, DMul::mul, Int128::mul, Int128::operator*"]}
{"id": "C147", "title": "The rationals of the convex hull are ordered", "statement": "Rational64::compare orders n1/d1 and n2/d2 as rationals for every numerator and denominator other than the least int64_t, with signs in either place, and puts n/0 above or below every rational according to the sign of n. Rational128 made from int64_t or Int128 stands for the quotient, and compare, with a Rational128 or an int64_t, orders the quotients, as long as the product of the denominator and the integer has 128 bits when one side is an integer.", "quantifier": "all numerators and denominators", "why_tests_cant": "the orders differ from the right one only for particular bit patterns among 2^256", "anchors": ["trajopt_ext/vhacd/src/btConvexHullComputer.cpp: btConvexHullInternal::Rational64, Rational128, Rational64::compare, Rational128::compare"]}
{"id": "C148", "title": "The arrays of the convex hull keep their memory", "statement": "A program that uses any number of btAlignedObjectArray within their bounds (push_back, pop_back, resize, reserve, clear, assignment also to themselves, initializeFromBuffer, operator[]) never reads, destroys or frees what is not there; each array is the sequence it should be whatever happens to the others; when all are destroyed, every block of the allocator's has been freed once and no buffer of the caller's has. Without assignment every element constructed is destroyed. push_back of an element of the array itself appends it if there is room and is undefined exactly if there is none.", "quantifier": "all programs over any number of arrays", "why_tests_cant": "memory errors depend on the history of all arrays, and reading freed memory mostly gives the old value", "anchors": ["trajopt_ext/vhacd/include/vhacd/inc/btAlignedObjectArray.h: btAlignedObjectArray (reserve, push_back, pop_back, resize, clear, copyFromArray, initializeFromBuffer)"]}
{"id": "C149", "title": "The integer grid of the convex hull fits", "statement": "For every set of points the convex hull computer chooses three different axes ordered by the extents of the points, and every point becomes an integer point with coordinates of at most 5108. getCoordinates of that point differs from the given one by at most the 10216th part of the extent along each axis and stays in the box of the points. Before rounding, the determinant of any four points keeps its sign whichever axes are exchanged. For points of the grid the differences, cross and dot products that merging and findMaxAngle and getOrientation compute in 32 and 64 bits are exact.", "quantifier": "all finite sets of points; all points of the grid", "why_tests_cant": "overflow occurs only for extreme combinations among 10217^15; orientation depends on ties between extents", "anchors": ["trajopt_ext/vhacd/src/btConvexHullComputer.cpp: btConvexHullInternal::compute, getCoordinates, Point32, Point64, merge, findMaxAngle, getOrientation"]}
{"id": "C150", "title": "The pools of the convex hull give out distinct objects", "statement": "For every program that uses a pool of the convex hull computer, whatever newObject, freeObject, reset and setArraySize it calls in whatever order, deciding by what it was given, and that frees and writes only objects it holds and asks for arrays of at least one place: every object given out is a place of an array of the pool and none of those held; the pool does not write objects that are held; a new array is taken only when every place of all arrays is held, so that after reset the same memory is used again.", "quantifier": "all programs, with every choice depending on the objects given out", "why_tests_cant": "the orders of calls are unbounded and an object given out twice shows only as a corrupted hull much later", "anchors": ["trajopt_ext/vhacd/src/btConvexHullComputer.cpp: PoolArray, Pool::newObject, Pool::freeObject, Pool::reset, Pool::setArraySize"]}
{"id": "C151", "title": "The edges of the convex hull stay in circles", "statement": "In a hull where the edges that start at each vertex form a circle through next and prev, the edges of a vertex point at one of them, and every edge has a reverse that starts where it ends: removeEdgePair takes an edge and its reverse out of their circles, keeps the order of the others and all their members, and frees both once; the loop that removes a vertex from the hull ends, leaves no edge that starts or ends there, and pushes exactly the vertices it was connected to; the hull of two points adds one pair of edges to vertices without edges.", "quantifier": "all hulls of any size and any edge or vertex of them", "why_tests_cant": "a broken circle shows only when a later merge walks around it; the number of edges is unbounded", "anchors": ["trajopt_ext/vhacd/src/btConvexHullComputer.cpp: Edge::link, newEdgePair, removeEdgePair, computeInternal (two points), shiftFace (removing part)"]}
{"id": "C152", "title": "Every face of the convex hull is near one vertex", "statement": "After any sequence of Face::init for new faces and receiveNearbyFaces between different vertices, the list of each vertex, followed from firstNearbyFace, is exactly the faces made there and taken over, in order; lastNearbyFace is its end; every face names as nearbyVertex the one vertex in whose list it is; no face is lost.", "quantifier": "all sequences of requests", "why_tests_cant": "lists grow without bound, and a lost face shows only as one that shrinking does not shift", "anchors": ["trajopt_ext/vhacd/src/btConvexHullComputer.cpp: Face::init, Vertex::receiveNearbyFaces"]}
{"id": "C153", "title": "Taking a part out of the convex hull removes what is connected to it", "statement": "For every hull of finitely many vertices with its edges in order and every stack of groups, the loops at the end of shiftFace end; every vertex to remove on the stack and every vertex that edges lead to from them has no edges afterwards, every other vertex has exactly the edges it had in their order, and the hull is still in order.", "quantifier": "all hulls, all stacks of groups", "why_tests_cant": "the loop pushes onto the stack it walks, so that termination and completeness are properties of all graphs", "anchors": ["trajopt_ext/vhacd/src/btConvexHullComputer.cpp: btConvexHullInternal::shiftFace (removing part)"]}
{"id": "C154", "title": "The result of the convex hull is a copy of the hull", "statement": "For every hull of finitely many vertices with its edges in order, the copying into the arrays of the result ends; the vertices of the result are exactly those that edges lead to from the first one, each once; its edges are the edges of the hull at those vertices, each once; and getSourceVertex, getTargetVertex, getReverseEdge, getNextEdgeOfVertex and getNextEdgeOfFace give what the hull has (around a vertex in the opposite direction).", "quantifier": "all hulls with their edges in order, all first vertices", "why_tests_cant": "the relative indices depend on the order in which the graph is walked; a test compares a few hulls", "anchors": ["trajopt_ext/vhacd/src/btConvexHullComputer.cpp: getVertexCopy, btConvexHullComputer::compute (copying)", "trajopt_ext/vhacd/include/vhacd/inc/btConvexHullComputer.h: btConvexHullComputer::Edge"]}
{"id": "C155", "title": "The convex hull returns every face once", "statement": "For every hull of finitely many vertices with its edges in order, filling the array of faces ends, its entries are edges of the result, and every edge of the result is reached along getNextEdgeOfFace from exactly one entry.", "quantifier": "all hulls with their edges in order, all first vertices", "why_tests_cant": "that every walk along a face comes back is a property of permutations of any size", "anchors": ["trajopt_ext/vhacd/src/btConvexHullComputer.cpp: btConvexHullComputer::compute (faces)"]}
{"id": "C156", "title": "The convex hull divides its points into distinct ones in order", "statement": "For all points in the order of the sort with differences that fit 32 bits, the recursion of computeInternal ends; the vertices of the hulls of one or two points it makes are strictly increasing in the order they are merged, so that no point is there twice and of two hulls merged all points of the first come before those of the second; every point given is one of them; every hull of one or two points has the right extreme vertices, and the last lines of mergeProjection keep that for two hulls in order, whose nearest vertices differ in the projection. The vertices are one after the other in memory, so that v + 1 is the next vertex. With the sort before it, for points in any order, the coordinates of the vertices are those of the points, each once.", "quantifier": "all sorted lists of points with small coordinates, all numbers of vertices", "why_tests_cant": "merge relies on the order of the halves and on distinct points for every list with repeated points", "anchors": ["trajopt_ext/vhacd/src/btConvexHullComputer.cpp: btConvexHullInternal::computeInternal, mergeProjection (extreme vertices), compute (vertices)"]}
{"id": "C157", "title": "The convex hull finds the edge of the greatest angle", "statement": "For every hull with its edges in order and every vertex, findMaxAngle ends; the edge it returns is a marked edge of the vertex, no marked edge of the vertex has a smaller cotangent (exactly, with the infinities), minCot is the cotangent of an edge that is neither smaller nor greater, and no edge is returned only if no marked edge has a cotangent.", "quantifier": "all hulls with their edges in order, all marks, all cotangents whose parts fit 63 bits, all answers of getOrientation", "why_tests_cant": "the comparison of 64 bit rationals needs 128 bit products; a wrong comparison shows only for close large quotients", "anchors": ["trajopt_ext/vhacd/src/btConvexHullComputer.cpp: btConvexHullInternal::findMaxAngle"]}
