# Formal model of trajopt: design

The code under study is the C++ repository in `/repo` (trajopt at the pinned commit).
The model and the proofs are in `/verif/rocq` (Coq 8.16.1). The properties are in
`/verif/properties.jsonl`, the claim status in `/verif/MANIFEST.json`, the mutation tests in
`/verif/seeded/LOG.jsonl`.

## 1. Method

* Every C++ function that a property depends on is written as a small total Gallina
  function. Each definition carries a comment with the file and lines it models and says
  where it simplifies.
* Loops become structural recursion or recursion on fuel. Running out of fuel is a separate
  outcome, never a normal-looking value.
* Exceptions, `assert` failures and out-of-range accesses are separate outcomes: `outcome`
  (`Ok | NoFuel | Undef`), `res` (`Val | Throws | Bad`) for trajopt_ifopt and trajopt_sqp,
  `run` (`Done | Thrown | Assert`) for problem construction, `option` for the arrays, `io` for
  the pipes.
* External code (QP solver, clock, user callbacks, user cost functions, collision checker,
  kinematics, singular value decomposition) is an oracle: an arbitrary function or an arbitrary
  stream. Theorems quantify over it; where they need its contract, the contract is a hypothesis
  of the theorem.
* Model files contain no proofs, `*Proofs.v` files contain lemmas, `*Props.v` files contain the
  property theorems, each followed by `Print Assumptions`, with a concrete `Example` beside it.
  `*Spec.v` files hold definitions a statement needs that do not come from the code.

### Numbers

`double` is modelled in three ways; each theorem says which one it uses.

1. `Num T`, a record of operations on an arbitrary carrier with no laws. Control-flow
   theorems are proved for an arbitrary `Num`, so they hold for IEEE doubles including NaN
   and infinities.
2. `R` (Coq reals) for algebraic statements. Rounding is not modelled there.
3. `Q`, or IEEE binary64 through `Coq.Floats.SpecFloat`, for executable examples and
   refutation witnesses.

### Naming

* `Cnn_…` : the property, or a named part of it.
* `Cnn_…_partial` : the part that is provable; the comment says what is missing.
* `Cnn_…_refuted` : the property as stated is false of the faithful model; the theorem gives a
  witness. These are the findings of section 5.

## 2. Model files, the code they cover, and how the properties are proved

| properties | model file | code modelled | proof technique |
|----|-----------|------------------|------------------|
| C01–C08, C70, C74, C75 | SqpModel | trajopt_sqp `trust_region_sqp_solver.cpp`: loops, status, box, merit coefficients | invariants over fuelled loops, for arbitrary `Num` where no law is needed; C03/C04/C08 over R |
| C09–C12, C71, C76, C77 | ScoOptModel | trajopt_sco `optimizers.cpp`: `BasicTrustRegionSQP`, results, budgets | same |
| C13 | ModelingModel, QpModel, IfoptQpModel | the three trust-box computations | case analysis over R |
| C14 | ParallelModel | the serial and OpenMP loops over costs and constraints, `addVar`, `setVarBounds` | permutations, small-step interleavings |
| C15, C16, C20–C22, C84, C85 | QpModel | trajopt_sqp `trajopt_qp_problem.cpp` | attained minimum over slacks, over R; reachable states |
| C13, C15, C16, C21, C86–C88 | IfoptQpModel | trajopt_sqp `ifopt_qp_problem.cpp` | same |
| C17–C19 | ExprsModel | trajopt_sqp `expressions.cpp` | ring identities over lists |
| C23–C26, C28, C82, C83 | IfoptModel | trajopt_ifopt `core/`, `costs/`, bounds part of `ifopt_utils.cpp` | induction over lists |
| C27 | NodesModel | trajopt_ifopt `variable_sets/` | induction over nodes |
| C29, C30 | JointCntModel | trajopt_ifopt `joint_*_constraint.cpp` | index arithmetic, ring |
| C31–C33 | ScoExprModel | trajopt_sco `expr_ops`, `expr_vec_ops`, expressions of `solver_interface.cpp` | homomorphism lemmas |
| C34 | EigenModel | trajopt_sco `solver_utils.cpp` | sums over triplets |
| C35–C39, C72, C73 | ModelingModel | trajopt_sco `modeling.cpp`, `modeling_utils.cpp`, `num_diff.cpp` | attained minimum over R, derivatives |
| C40–C44 | BackendModel | trajopt_sco `osqp_interface.cpp`, `qpoases_interface.cpp`, `bpmpd_interface.cpp` | refinement to the history of API calls |
| C45, C46 | PipeModel | `bpmpd_io.hpp`, `bpmpd_caller.cpp`, solver names and `createModel` | byte streams, computation |
| C47, C48 | CacheModel | trajopt_common `cache.h` | refinement to an abstract LRU map |
| C49–C54, C78–C81 | CollisionModel | trajopt_common `collision_types.cpp`, `collision_utils.cpp`; trajopt_ifopt collision constraints, weighted averages | induction, sums over R |
| C67, C68 | TermsModel | trajopt `collision_terms.cpp` | histories of queries, ring |
| C55, C56 | ArrayModel | `basic_array.hpp`, `interpolation.hpp` | index arithmetic |
| C59, C60, C89 | TrajCostModel | trajopt `trajectory_costs.cpp` | sums over cells |
| C57, C58, C61–C65, C90–C94 | TrajoptModel | trajopt `problem_description.cpp`, `utils.cpp`: subsets, variables, ranges, hatching, fixed steps, time flags, initial trajectories, JSON members | lia, induction |
| C66, C69, C95–C100 | KinModel | trajopt `kinematic_terms.cpp` and the corresponding `hatch` functions | derivatives (`derivable_pt_lim`) |
| C101–C106 | IfCartModel | trajopt_ifopt `cartesian_position_constraint.cpp`, `cartesian_line_constraint.cpp`, `inverse_kinematics_constraint.cpp` | case analysis, projection on a segment, derivatives |
| C107–C109 | CollNumModel | trajopt_ifopt `discrete_collision_numerical_constraint.cpp`, `continuous_collision_numerical_constraint.cpp` | lookup by identity, difference quotients |
| C110–C112 | OsqpModel | trajopt_sqp `osqp_eigen_solver.cpp`, `trust_region_sqp_solver.cpp` 202–371 (the calls of the QP solver) | invariant over call sequences, sums |
| C113–C116 | EvalModel | `discrete_collision_evaluators.cpp`, `continuous_collision_evaluators.cpp` (poses, recording, construction), trajopt `collision_terms.cpp` 203–250, 385–430, 602–1173, `collision_utils.cpp` 116–221, `problem_description.cpp` 1714–1837 (types) | invariant over call sequences, derivatives |
| C117–C119 | JsonModel, JsonShippedProps | trajopt `json_marshal.cpp`, `json_marshal.hpp`, `problem_description.cpp` 32–67, 106–308, 393–410, 544–549 and the fromJson functions of the terms, `trajopt_common/data/config` (transcribed) | structural, relation between document and description |
| C120–C121 | SerialModel | trajopt_common `yaml_extensions.h` 40–137, `cereal_serialization.h` 15–31, `collision_types.cpp` 76–125, members of `collision_types.h` 112–163 | structural (round trip over any ordered type, comparison over R, one refutation over doubles) |
| C122 | TwistModel | trajopt_common `utils.cpp` 5–16, `cartesian_position_constraint.cpp` 332–358 (rotational half of a column) | vector algebra, rotations as maps that keep dot and cross products, derivatives over R |
| C123, C124 | LogModel | trajopt_sco `optimizers.cpp` 533–650, 708–718, 858–873, 980–987; trajopt `file_write_callback.cpp` | splitting the text at commas and newlines, structural over any number type |
| C125 | ObserverModel | trajopt_ifopt `nodes_observer.cpp`, `nodes_variables.cpp` 79–99 | structural |
| C126, C127 | GurobiModel | trajopt_sco `gurobi_interface.cpp` 49–324; the call pattern of `optimizers.cpp` 782–880 and `modeling.cpp` 99–147, 180–197, 243–249 | simulation of deferred additions and removals by a history, reals |
| C128, C129 | SolveModel | trajopt_sco `osqp_interface.cpp` 440–614, `qpoases_interface.cpp` 133–150, 220–261, `bpmpd_interface.cpp` 355–541 | composition of C40–C44 with a contract for the solver, reals |
| C130 | SolveModel, RoundSolveSpec | the call pattern of `optimizers.cpp` 782–880 and `modeling.cpp` (see C127) through the backends of C128; `solver_interface.cpp` 111–116 | histories of C127 carried over to C128 |
| C131, C132 | MeritModel, MeritSpec | `optimizers.cpp` 59–80, 194–233, 380–426, 781–799; `modeling.cpp` 86–149 | what `convex()` returns is given by the operations applied to a new ConvexObjective; single-threaded order |
| C133 | RunModel, RunSpec | `optimizers.cpp` 151–233, 380–426, 699–991 and `modeling.cpp` 86–150, 260–271 put together with the OSQP, qpOASES and BPMPD backends of C128 | the objects of a pass are destroyed just before the next convexification; callbacks leave model and results alone; update_workspace off; an exception of qpOASESModel (shown not to happen) counts as an abort |
| C134 | SqpRunModel, SqpRunSpec | `trust_region_sqp_solver.cpp` 45–439 (C01–C08 model), `trajopt_qp_problem.cpp` (C82–C87 model) and `osqp_eigen_solver.cpp` (C110–C112 model) put together | the library's answers may depend on the number of the call and the data it holds; callbacks leave the problem and the solver alone |
| C135 | JointRunModel, JointRunSpec | `joint_{position,velocity,acceleration,jerk}_constraint.cpp` (C28–C30 model) added by `addConstraintSet` and `addCostSet`, `trajopt_qp_problem.cpp` 405–477, and solved as in C134 | a getter that fails an assertion has no entries (shown not to happen) |
| C136 | PlanModel, PlanSpec | `problem_description.cpp` 378–541 (`TrajOptResult`, `OptimizeProblem`, `ConstructProblem`) over the joint terms of C58–C62, C89 and C92–C94 and the solver run of C133; `OptProb::getCosts/getConstraints`, `Optimizer::initialize`, the parameters of `optimizers.hpp` 92–133 | no time, no names, no plotter; an Eigen assertion in value() counts as 0 (shown not to happen) |
| C137 | DocModel, DocSpec | `problem_description.cpp` 543–548 (`ConstructProblem` of a document), joining C117–C119 (reading), C46 (`createModel`) and C136 | documents with other terms than joint terms, or with terms that use time, are outside (outcome `Other`) |
| C138 | PlotModel | `plot_callback.cpp`, `Plot` in `typedefs.hpp` 92–100, 128–136, `kinematic_terms.cpp` 113–132, 265–284, `collision_terms.cpp` 701–740, 915–983, 1183–1244, 1329–1332, `trajopt_utils.cpp` 34–56, the plot callbacks of trajopt_sqp | the view is the list of calls to it; colours, scales and the lifetime of what the lambdas capture by reference are left out; forward kinematics, Jacobian and contacts are parameters; fewer than 2^31 variables |
| C139 | TimedModel, TimedSpec | `problem_description.cpp` 394–541 with `use_time`, 1197–1372 (velocity terms with time), 1851–1892 (total time); `kinematic_terms.cpp` 427–492, 572–606; `modeling_utils.cpp` 137–271, over the parts of C50, C52, C58–C62 and the solver run of C133 | joint terms and total time only; names, plotting and logging are left out; numbers are reals |
| C140 | TimedDocModel, TimedDocSpec | `problem_description.cpp` 272–308, 410–553 for documents that use time, over JsonModel (C118, C119), TimedModel (C139) and `createModel` (C46) | documents with terms other than on joints and total time are outside |
| C141 | MeshModel, MeshSpec | `trajopt_ext/vhacd`: `vhacdMesh.h` 78–144, `vhacdMesh.cpp` 46–123, 154–232, `vhacdVector.inl` 48–175, `FloatMath.inl` 686–798, 5138–5192 | arrays are lists; `ComputeConvexHull` and files are outside; 32 bit index arithmetic of the centroid does not wrap |
| C142 | SArrayModel, SArraySpec | `trajopt_ext/vhacd`: `vhacdSArray.h` 37–154 | elements are values with a trivial destructor; the heap block is a list of cells; allocation does not fail |
| C143 | RingModel, RingSpec | `trajopt_ext/vhacd`: `vhacdCircularList.h` 32–91, `vhacdCircularList.inl` 6–159 | nodes in an explicit memory; addresses are not used again; the size does not overflow |
| C144 | HessModel, HessSpec | `trajopt_sco`: `num_diff.cpp` 92–104, `modeling_utils.cpp` 54–119 with `full_hessian_` | a matrix is the list of its rows; `SelfAdjointEigenSolver` is an argument |
| C145 | SortModel, SortSpec | `trajopt_ext/vhacd`: `btAlignedObjectArray.h` 177–182, 290–442, `btConvexHullComputer.cpp` 76–88, 1804–1807 | the array is the list of its elements; indices do not overflow; elements are plain values |
| C146, C147 | WideModel, WideSpec | `trajopt_ext/vhacd`: `btConvexHullComputer.cpp` 97–203, 205–310, 466–503, 689–849 | words are integers with arithmetic modulo 2^64; signed overflow is undefined; no assembler; no `toScalar` |
| C148 | PoolModel, PoolSpec | `trajopt_ext/vhacd`: `btAlignedObjectArray.h` 47–283, 444–459 | memory is a list of blocks of cells; sizes do not overflow `int32_t`; allocation does not fail; elements are counted, their constructors and destructors do nothing else; `btAssert` not modelled |
| C149 | GridModel, GridSpec | `trajopt_ext/vhacd`: `btConvexHullComputer.cpp` 64–95, 363–365, 1245–1248, 1283–1284, 1616–1619, 1809–1897, 1944–1951, `btVector3.h` 189–199, 271–287, `btMinMax.h` 41–57 | theorems over the reals, refutations over the rationals; coordinates are a list; `index` and the fourth component left out |
| C150 | FreeModel, FreeSpec | `trajopt_ext/vhacd`: `btConvexHullComputer.cpp` 525–605 | an object is a place; of its members only `next`; allocation does not fail; sizes are natural numbers |
| C151 | HEdgeModel, HEdgeSpec | `trajopt_ext/vhacd`: `btConvexHullComputer.cpp` 390–414, 631–665, 848–868, 1121–1127, 2479–2488 | of an edge `next`, `prev`, `reverse`, `target`; of a vertex `edges`; objects from the pool are arguments |
| C152 | NearModel, NearSpec | `trajopt_ext/vhacd`: `btConvexHullComputer.cpp` 366–388, 446–461 | without the geometry of faces; vertices and faces always exist |
| C153 | HPartModel, HPartSpec | `trajopt_ext/vhacd`: `btConvexHullComputer.cpp` 2460–2495 | the stack is what is left of it; faces left out (C152); edges as in C151 |
| C154 | HCopyModel, HCopySpec | `trajopt_ext/vhacd`: `btConvexHullComputer.cpp` 2506–2520, 2549–2599, `btConvexHullComputer.h` 34–57 | coordinates left out; a negative `copy` is `None`; the array of edges is a function and its size (C148) |
| C155 | HFaceModel, HFaceSpec | `trajopt_ext/vhacd`: `btConvexHullComputer.cpp` 2601–2630 | as C154 |
| C156 | SplitModel, SplitSpec | `trajopt_ext/vhacd`: `btConvexHullComputer.cpp` 506–516, 1037–1046, 1054–1171, 1900–1910 | a vertex is its place in `originalVertices`; `merge` only as far as extreme vertices; edges of two points in C151 |
| C157 | AngleModel, AngleSpec | `trajopt_ext/vhacd`: `btConvexHullComputer.cpp` 246, 1264–1319, over C147 and C151 | marks, cotangents, the asserted sign and `getOrientation` are arguments |

## 3. Trusted base

* The Coq 8.16.1 kernel.
* The axioms of section 4, all from Coq's standard library. No axiom, parameter, functor,
  module type, plugin or unchecked definition is added here.
* The reading of the C++ source. The code is not run; the model is tied to it by the citations
  at each definition.
* Knowledge of libraries that are not part of `/repo`: Eigen (`LinSpaced`, `isZero`, assertions on
  indices and sizes, `insertBack` order, `setFromTriplets`), tesseract
  (`makeOrderedLinkPair`, `almostEqualRelativeAndAbs`, `applyTolerances`), `std::sort` (any
  sorted permutation), OSQP's, qpOASES's and BPMPD's conventions for infinity, row slack and
  triangles. Each is stated at the definition that uses it.

### Simplifications inside modelled code

* Rounding: theorems over R do not model it. Theorems over an arbitrary `Num` do not need to.
* Strings that are only compared are natural numbers (joint, node and variable names).
* `ScoExprModel`: calls with aliased arguments such as `exprInc(a, a)` are not modelled.
* `BackendModel`: removed slots, not pointers; a failed setup leaves no workspace.
* `PipeModel`: schedules of partial reads and writes; no blocking, no end of file.
* `ParallelModel`: each iteration has its own thread; terms are pure functions; `push_back` either
  fits or replaces the buffer.
* `CacheModel`: the hash is a key with decidable equality.
* `ArrayModel`: unlimited memory.
* `TrajCostModel`: the order (position to jerk) is a parameter of one definition instead of four
  classes; coefficient vectors are assumed to have one entry per joint where the code does.
* `TrajoptModel`: the environment is its joint limits and current values; the evaluation order of
  function arguments is a parameter.
* `KinModel`: forward kinematics, `calcJacobian`, the decomposition, `calcTransformError` and
  `calcJacobianTransformErrorDiff` are parameters.
* `IfCartModel`: frames, error functions, `addTwist`, `slerp` and inverse kinematics are parameters; the transform
  cache and names are left out; rotations are an arbitrary type. `tcp_offset` of the inverse kinematics constraint is
  documented as ignored, and is.
* `CollNumModel`: the evaluator is a parameter (C107_evaluator instantiates it with the sets of `CollisionModel`); the explicit
  zeros of a fixed sparsity and the column offset of the variable are left out.
* `OsqpModel`: OsqpEigen is taken to store what it is given when the sizes fit; whether an update in place, a setup or a
  solve succeeds is an input, and after a refused update the part concerned holds anything. It is also taken to need
  all parts before the first solve. Settings, debug output, the dual start (zero) and the unused updateLowerBound and
  updateUpperBound are left out. The Hessian is dense and taken as a whole (OsqpEigen uses its upper triangle; the ones
  built by convexify() are symmetric).
* `EvalModel`: the contact manager is the poses it was given last, a contact test a function of them; kinematics and Jacobian are
  parameters; tesseract's addInterpolatedCollisionResults and jacobianChangeRefPoint are not in /repo: their models are recollected and could not be checked against the source. The
  maps of results are association lists ordered by link pair. The debug comparison of the two filters in O 871–878 is C78.
* `SerialModel`: link names are numbers and YAML scalars are their values, not texts; yaml-cpp, cereal and tesseract's almostEqualRelativeAndAbs and isIdenticalMap (not in /repo) are recollected; the contact manager and check configurations are parameters, assumed to be read back as written where a theorem says so.
* `TwistModel`: three-vectors as records; Eigen's products, inverse, normalized() and AngleAxis written out; sqrt, sin, cos are those of the reals. jacobianChangeBase and
  calcJacobianTransformErrorDiff (not in /repo) are recollected; the latter's three components are the rotational ones (its size is the subject of C102_analytic).
* `LogModel`: a printed number is one symbol; that printing writes no comma or newline for a number is assumed; the log level is fixed during a call.
* `ObserverModel`: observers do not change the variable set or its observers while being called; ownership is one flag.
* `GurobiModel`: Gurobi (not in /repo) is a queue: added columns and rows exist and deleted ones vanish at GRBupdatemodel/GRBoptimize, attributes of objects that are not there yet cannot be set;
  this is recollected from its manual. Attribute changes to existing objects are made at once (only seen after an update in either case). What the solver returns is an argument. Names, the environment, optimizeFeasRelax and writeToFile are left out.
* `SolveModel`: the solvers are functions of the arrays they are handed (qpOASES also of what its SQProblem keeps); the theorems assume that a reported solution solves the QP of those arrays within an accuracy and that a reported
  infeasibility is one. Debug output and the writing of files are left out. Examples construct such solvers; `C128_able` uses the description axiom (ClassicalEpsilon) for one that solves everything.
* `JsonModel`: a document is a tree; jsoncpp (not in /repo) is recollected: its conversions, what it iterates over, when it throws. Parsing, duplicate names,
  user-defined terms and logging are left out; the joint group is the number of joints and two predicates on link names.

### Not modelled

* The internals of Eigen, OSQP, qpOASES, BPMPD, Gurobi, tesseract, boost, jsoncpp, yaml-cpp.
* Console output, serialization of other classes, and of the bundled `trajopt_ext/vhacd`
  everything but what C141–C143 and C145–C157 name.
* Memory layout and object lifetime, except where a property is about them (C40, C48), and data
  races other than those of C14.

## 4. Axioms per theorem

What `Print Assumptions` lists. All are axioms of the standard library: `functional_extensionality_dep`
(Coq.Logic.FunctionalExtensionality), `sig_forall_dec` and `sig_not_dec` (Coq.Reals.ClassicalDedekindReals, on
which the real numbers are built), `classic` (Coq.Logic.Classical_Prop) and
`constructive_indefinite_description` (Coq.Logic.ClassicalEpsilon; only where an example constructs a solver that solves everything).

**Closed under the global context (no axioms)** (229 theorems):
C01_converged_is_feasible, C02_best_var_vals_are_decision_variables_refuted, C02_result_coherent, C04_needs_shrinking_refuted, C05_max_iterations_bounds_qps_refuted, C05_max_iterations_partial, C06_callback_stops_partial, C06_callback_stops_refuted, C06_final_status_never_stopped, C07_qp_failure_partial, C07_qp_failure_reported_refuted, C08_violation_at_tolerance_grows_refuted, C09_converged_feasible_partial, C09_converged_feasible_refuted, C09_nan_violation_refuted, C10_values_of_x_partial, C10_values_of_x_refuted, C12_all_failures_reported_refuted, C12_convexifications, C12_failures_per_loop, C12_no_assertion, C14_bounds_partial, C14_convexify_partial, C14_evaluation, C14_lost_bounds_refuted, C14_same_numbers_refuted, C30_same_rows, C38_nan_refuted, C40_stale_refuted, C40_update, C42_failed_attempt_refuted, C42_failed_keeps, C42_fresh, C42_prefix_refuted, C42_reuse_partial, C43_replace_partial, C45_problem, C45_session, C45_short_read_refuted, C45_solution, C46_create, C46_env_refuted, C46_names_partial, C46_round_trip, C47_get_returns_last_put, C47_retention, C47_usage_pattern, C48_consistent, C48_held_hit_pointer_refuted, C49_double_refuted, C49_refuted, C55_at, C55_at_throws, C55_block, C55_bottom_rows_refuted, C55_bottom_rows_throws, C55_column_refuted, C55_middle_rows_partial, C55_middle_rows_refuted, C55_top_rows, C55_vectors, C57_get, C57_inverse, C57_refused_update_refuted, C57_repeated_refuted, C57_superset, C57_superset_refuted, C57_update, C58_arrays, C58_create, C58_get_traj, C58_variables, C61_constructs, C61_ranges, C63_accepts, C63_both_fixed, C63_discrete, C63_partial, C63_refuted, C64_partial, C64_refuted, C64_unread, C65_accepts, C65_throws, C67_partial, C67_refuted, C67_repeat, C67_zero_hash_refuted, C70_nan_step_rejected_refuted, C71_reinitialize_refuted, C74_limits_are_real, C74_time_limit_honoured, C75_box_follows_history, C75_coefficients_follow_history, C76_box_follows_history, C76_penalty_rule, C77_limits_are_real, C81_rows_in_use, C88_accepted_cost_partial, C90_accepts, C90_last_step, C90_partial, C90_refuted, C91_partial, C91_refuted, C93_accepts, C109_accepts, C109_null_refuted, C110_run, C113_calls, C113_diff, C113_history, C113_libraries, C113_stateless, C113_stateless_old_refuted, C116_continuous, C116_ends, C116_hatch, C116_types, C117_refused, C117_total, C117_typed, C118_init, C118_init_refused, C118_opt, C118_opt_refuted, C118_optimizer, C118_required, C118_unknown, C119_names, C119_pairs, C119_shipped_refuted, C119_terms, C120_cereal, C120_config, C120_config_cereal, C120_document, C120_members, C120_refused, C120_yaml, C121_infinite_refuted, C123_again_refuted, C123_comma_refuted, C123_constraints, C123_costs, C123_run, C123_unopened, C123_unopened_refuted, C124_first_refuted, C124_glued, C124_glued_refuted, C124_heading, C124_links_refuted, C124_row, C124_rows, C124_width, C125_construct, C125_construct_refuted, C125_notified, C126_early_refuted, C126_quad_refuted, C126_removed_refuted, C126_stale_refuted, C126_terms_refuted, C138_array, C138_cart_error, C141_centre_refuted, C142_assign, C142_clear, C142_own_refuted, C142_pop_refuted, C142_resize_refuted, C142_run, C143_assign, C143_clear, C143_copy, C143_copy_refuted, C143_foreign_refuted, C143_foreign_size_refuted, C143_run, C145_binary, C145_heap, C145_nonstrict_refuted, C145_points, C145_quick, C145_remove, C146_difference, C146_less_refuted, C146_neg, C146_neg_refuted, C146_order, C146_product, C146_scaled, C146_signed_product, C146_sum, C147_new, C147_overflow_refuted, C147_rational128, C147_rational64, C148_assign_refuted, C148_destroyed, C148_own, C148_own_refuted, C148_run, C149_distinct_refuted, C149_exact, C149_turn, C149_turn_refuted, C150_full, C150_kept, C150_run, C150_twice_refuted, C150_zero_refuted, C151_pair, C151_remove, C151_vertex, C152_each, C152_run, C152_self_refuted, C153_kept_refuted, C153_part, C154_copy, C154_vertex_edges, C155_faces, C156_distinct, C156_extremes, C156_parts, C156_vertices, C157_max_angle.

**`sig_forall_dec`, `functional_extensionality_dep`** (293 theorems):
C03_accepted_steps_monotone, C03_sufficient_decrease, C04_solve_terminates, C04_trust_region_loop_bounded, C05_max_iterations_excess_partial, C08_penalty_count, C08_penalty_grows, C08_penalty_rule, C11_merit_monotone, C11_sufficient_decrease, C12_penalty_count, C12_terminates, C13_sco_trust_box, C13_sqp_trust_box, C18_empty_hessian_refuted, C18_one_variable_refuted, C18_partial, C19_exact_at_x, C19_exact_everywhere, C23_projection, C23_size, C24_errors, C25_blocks, C25_cost_coefficients_refuted, C25_stacking, C26_partial, C26_refuted, C26_sum_mode, C27_empty_variable_refuted, C27_get_var, C27_layout, C27_set_get, C27_throws, C27_unique_owner, C28_absolute_gradient_partial, C28_absolute_gradient_refuted, C28_squared_gradient, C28_value, C29_differences, C29_order_refuted, C29_rows, C29_throws, C30_bounds_partial, C30_split_refuted, C30_targets, C31_affine, C31_constructors, C31_quadratic, C31_well_formed, C32_product_and_square, C33_cleanup, C34_affine_vector, C34_constraint_matrix, C34_osqp_arrays, C34_quadratic_objective, C34_quadratic_range_refuted, C35_terms_exact, C36_partial, C36_refuted, C37_partial, C37_refuted, C38_violation_amounts, C38_violations, C39_cleanup_error, C39_cleanup_refuted, C39_constraint_convex, C39_cost_convex, C39_negative_weight_refuted, C40_meaning, C41_osqp, C41_qpoases, C43_affine_refuted, C43_arrays, C44_bpmpd, C44_simplify2, C49_partial, C50_last_write_wins, C50_zero_set_partial, C50_zero_set_refuted, C51_getters, C51_order_independent, C51_slots, C53_boundary_refuted, C53_weighted_average, C54_continuous, C54_discrete_partial, C54_discrete_refuted, C56_between, C56_comment_refuted, C56_empty_refuted, C56_interp, C56_knots, C56_search, C56_search_refuted, C56_search_running, C59_eq_costs, C59_ineq_costs, C60_partial, C60_refuted, C61_refuted, C62_fixed, C62_refuted, C62_rejected_partial, C66_defined, C66_time, C66_velocity, C66_velocity_value, C68_both_free, C68_common_displacement, C68_misaligned_refuted, C68_one_free, C68_single_step, C69_gradient_partial, C69_ndebug, C69_partial, C69_refuted, C72_forward_jacobian, C72_func_cost_model, C72_numerical_derivatives, C73_penalties_exact, C78_filter_spec, C78_old_filter_agrees_partial, C78_old_filter_agrees_refuted, C79_partial, C79_refuted, C80_grouping, C81_refuted, C82_affine, C82_columns, C83_interpolate, C89_order_refuted, C89_rows, C89_violation, C92_interpolated, C92_others, C92_shape, C92_single_step, C94_adds, C94_both_refuted, C94_cost, C94_parameters, C94_time, C95_acceleration, C95_jerk, C95_refuted, C95_value, C96_cost, C96_jacobian, C96_value, C97_dynamic, C97_partial, C97_refuted, C97_selection, C98_accepts, C98_partial, C98_refuted, C99_constraint, C99_cost_partial, C99_gradient, C99_refuted, C100_cost, C100_limit, C100_refuted, C100_unsatisfiable, C101_accepts, C101_bounds, C101_rows, C102_analytic, C102_analytic_refuted, C102_partial, C105_accepts, C105_set_bounds_refuted, C107_discrete, C107_evaluator, C108_first_partial, C108_second, C108_second_refuted, C108_throws_refuted, C109_set_bounds_refuted, C110_ignored_refuted, C110_reuse_refuted, C110_status_refuted, C111_bounds, C111_gradient_refuted, C111_objective, C114_discrete, C114_single, C115_cast, C115_discrete, C115_single, C117_int, C117_types_refuted, C118_basic, C118_defaults, C118_limits_refuted, C118_solver_refuted, C118_unknown_refuted, C119_checks, C119_manip, C119_problem, C119_rotation, C119_rotation_refuted, C119_sides, C119_steps_refuted, C120_alias_refuted, C120_inplace_refuted, C120_new, C121_coeffs, C121_config, C121_meaning, C121_redundant_refuted, C121_reflexive, C121_round_trip, C121_transitive_refuted, C126_program, C127_rounds, C128_bpmpd, C128_osqp, C128_qpoases, C129_again_refuted, C129_bpmpd_partial, C129_infeasible_refuted, C129_osqp_partial, C130_bpmpd, C130_osqp, C130_problem, C130_qpoases, C131_bpmpd, C131_osqp, C131_qpoases, C132_bpmpd, C132_improvement, C132_osqp, C132_qpoases, C133_convex, C133_ends, C133_limits, C133_no_abort, C133_stationary, C135_accepted, C135_unit, C136_best, C136_best_all, C136_built, C136_converged, C136_ends, C136_limits, C136_reported, C137_all_terms, C137_constructed, C137_solved, C137_start, C137_time, C138_constraint_refuted, C138_contacts, C138_nothing_else, C138_pose, C138_second_refuted, C138_single_refuted, C138_sqp, C138_timed, C138_timed_refuted, C138_trajectory, C139_built, C139_converged, C139_ends, C139_limits, C139_reported, C140_all_terms, C140_constructed, C140_solved, C140_start, C140_time, C140_untimed, C141_clip, C141_inside, C141_inside_convex, C141_inside_refuted, C141_inside_volume, C141_open_refuted, C141_tetrahedron, C141_volume, C141_volume_affine, C141_volume_flip, C141_volume_join, C144_convex, C144_exact_refuted, C144_expansion, C144_model, C144_quadratic, C149_back, C149_grid, C149_orientation.

**`sig_forall_dec`, `sig_not_dec`, `functional_extensionality_dep`** (85 theorems):
C13_ifopt_resize, C13_ifopt_trust_region, C13_qp_resize, C13_qp_trust_region, C15_ifopt_merit, C15_ifopt_slack_penalty, C15_slack_penalty, C16_convex_violations, C16_ifopt_violations, C16_touches_partial, C16_touches_refuted, C17_square, C20_merit_by_set_partial, C20_merit_by_set_refuted, C21_exact_unchanged, C21_ifopt_setup_again, C21_setup_again_refuted, C22_convex_penalties_zero, C22_unit_weights_partial, C22_weights_refuted, C52_continuous, C52_discrete, C84_gauss_newton, C85_defined_partial, C85_defined_refuted, C86_convex_costs, C87_absolute_refuted, C87_total_partial, C87_two_costs_refuted, C87_weights_refuted, C88_rejected_cost_refuted, C103_behind_refuted, C103_closest_iff, C103_direction_refuted, C103_frame_refuted, C103_length_refuted, C103_partial, C103_slerp_refuted, C104_fewer_refuted, C104_order_refuted, C104_partial, C104_rows, C104_six, C106_empty_refuted, C106_jacobian, C106_nearest, C106_zero, C110_problem, C111_problem, C112_alignment_refuted, C112_feasible_partial, C112_range_refuted, C112_start, C112_upper_refuted, C114_cast, C114_end_refuted, C114_start, C114_tests, C114_times, C114_whole, C115_cast_refuted, C115_discrete_refuted, C115_recorded, C116_continuous_refuted, C122_frames, C122_frames_refuted, C122_rigid, C122_steps, C122_turn, C122_velocity, C134_convex, C134_ends, C134_limits, C134_no_abort, C134_reported, C134_stationary, C135_best, C135_ends, C135_limits, C135_range_refuted, C135_reported, C141_centre, C141_centre_inside, C141_diagonal, C141_empty_refuted.

**`sig_forall_dec`, `constructive_indefinite_description`, `classic`, `functional_extensionality_dep`** (5 theorems):
C133_linear_refuted, C136_fixed_refuted, C136_tolerance_refuted, C137_opt_refuted, C139_default_refuted.

**`sig_forall_dec`, `sig_not_dec`, `classic`, `functional_extensionality_dep`** (1 theorems):
C99_difference.

## 5. Findings

Each item is a theorem about the model: a `_refuted` theorem with a witness, or (marked *) a
positive theorem that says something unexpected. File names are relative to the package.

### trajopt_sqp: `trust_region_sqp_solver.cpp`
* `C02_best_var_vals_are_decision_variables_refuted`: after an accepted step `best_var_vals` is the whole QP solution, slack variables included.
* `C05_max_iterations_bounds_qps_refuted`: `max_iterations` is only tested between convexifications; with limit 1 four QPs are solved.
* `C06_callback_stops_refuted`: a callback that returns false does not stop the solver; `kStoppedByCallback` is never the final status.
* `C07_qp_failure_reported_refuted`: if every QP fails, the final status is `kPenaltyIterationLimit`, never `kQPSolveFailed`.
* `C08_violation_at_tolerance_grows_refuted`: a violation equal to the tolerance blocks convergence but increases no merit coefficient.
* `C70_nan_step_rejected_refuted`: a trial point whose merit is NaN is accepted, and the run can end with `kConverged` there.
* `C04_needs_shrinking_refuted`: a shrink ratio of 1 makes the trust-region loop endless.

### trajopt_sqp: QP problems and expressions
* `C16_touches_refuted`: Jacobian entries below 1e-7 are dropped from the matrix but not from the constant, so the linearisation need not touch the constraint at the expansion point.
* `C18_empty_hessian_refuted`, `C18_one_variable_refuted`: `createQuadExprs` drops the linear part of a cost without Hessian entries, and takes a 1x1 Hessian for the row encoding of a squared expression.
* `C20_merit_by_set_refuted`: a constraint set without rows does not advance the merit index, so later sets get another set's coefficient.
* `C21_setup_again_refuted`: after a second `setup()` static sets are missing from the QP and row bounds stay unwritten.
* `C22_weights_refuted`: exact penalties ignore coefficients; `evaluateConvexCosts` is zero at every QP-feasible point*.
* `C85_defined_refuted`: `evaluateConvexCosts` fails when all squared costs have no rows.
* `C87_two_costs_refuted`, `C87_weights_refuted`, `C87_absolute_refuted`: `IfoptQPProblem` counts the change of the costs once per cost, `getTotalExactCost` is only the first cost, and coefficients and absolute costs are convexified differently from how they are evaluated.
* `C88_rejected_cost_refuted`: `addCostSet` throws for hinge costs after having added the set; the QP minimises its square.

### trajopt_ifopt
* `C26_refuted`: with several cost terms the problem's cost and gradient are those of the first one.
* `C25_cost_coefficients_refuted`: the coefficients of a cost are those of the wrapped constraint, so reading the coefficients of the costs asserts unless that has one row.
* `C27_empty_variable_refuted`: a variable without elements can be added but then no vector can be set.
* `C28_absolute_gradient_refuted`: errors below 1e-12 get a zero gradient.
* `C29_order_refuted`: positions in another order than in the variable set are accepted but abort `getJacobian()`.
* `C30_split_refuted`: splitting ranges with no or one coefficient reads outside the caller's vector.
* `C53_boundary_refuted`, `C54_discrete_refuted`, `C79_refuted`, `C81_refuted`: a contact exactly at margin plus buffer trips an assertion; the discrete evaluator ranks by link A only and can drop the only collision; the averaged Jacobian is half the derivative when both links move; unused rows keep stale coefficients.
* `C102_analytic_refuted`, `C102_analytic`*: without numeric differentiation `CartPosConstraint` assigns the error difference to three entries; with it, it reads six. No difference of one length serves both once a rotation is constrained.
* `C103_length_refuted`, `C103_behind_refuted`, `C103_direction_refuted`, `C103_frame_refuted`, `C103_slerp_refuted`: `CartLineConstraint::getLinePoint` is not the closest point: it takes absolute values of the displacement, cuts at 1 instead of the length, uses the offsets instead of the transformed ends, and interpolates orientations outside [0, 1]. `C103_closest_iff` says exactly when it is right.
* `C104_fewer_refuted`, `C104_order_refuted`: its Jacobian always has six rows and reads components twice through `indices`, so fewer or reordered components fail or are wrong.
* `C105_set_bounds_refuted`: `CartLineConstraint::setBounds` asserts six bounds whatever the number of rows.
* `C106_empty_refuted`: without assertions `InverseKinematicsConstraint` reports error zero when there is no solution.

### trajopt_sco
* `C09_converged_feasible_refuted`, `C09_nan_violation_refuted`: with the time limit exceeded before the first evaluation the status is `OPT_CONVERGED` although constraints are violated; a NaN violation is ignored by `vecMax`.
* `C10_values_of_x_refuted`: a second `optimize()` without `initialize()` keeps the old cost values for a projected `x`.
* `C12_all_failures_reported_refuted`: if all QPs fail and the failure limit is large, `OPT_CONVERGED` is reported.
* `C71_reinitialize_refuted`: the shrunken trust box is stored in the parameters and survives `initialize()`.
* `C34_quadratic_range_refuted`: out-of-range variables in quadratic terms are not checked.
* `C36_refuted`: `addMax` does not change the objective and leaves its variable behind.
* `C37_refuted`: `getClosestFeasiblePoint` ignores lower bounds.
* `C38_nan_refuted`: `pospart(NaN)` is 0.
* `C39_cleanup_refuted`, `C39_negative_weight_refuted`: `cleanupAff` drops coefficients but keeps their part of the constant; negative weights with ABS are evaluated and convexified differently.
* `C40_stale_refuted`: a removed `Var` keeps its index and then addresses another variable.
* `C42_prefix_refuted`, `C42_failed_attempt_refuted`: the OSQP pattern comparison compares too few bytes, and compares with the last attempt instead of the workspace.
* `C43_affine_refuted`: an affine objective leaves the quadratic terms of the previous one.
* `C45_short_read_refuted`: short reads on the pipes go unnoticed without assertions.
* `C46_env_refuted`: `MODEL_NAMES_` is not in the order of the enumeration; `TRAJOPT_CONVEX_SOLVER=OSQP` creates another solver.
* `C14_same_numbers_refuted`, `C14_lost_bounds_refuted`: the numbering of the added variables depends on the schedule; `setVarBounds` outside the mutex can lose bounds.

### trajopt_common
* `C48_held_hit_pointer_refuted`: the object returned by a cache hit is recycled after enough misses.
* `C49_refuted`, `C49_double_refuted`: shape keys collide for shapes without subshape, and for large identifiers.
* `C50_zero_set_refuted`: coefficients up to 1e-6 count as zero and their contacts are dropped.
* `C78_old_filter_agrees_refuted`: the new and the old contact filter disagree when one end is fixed.
* `C55_column_refuted`, `C55_middle_rows_refuted`, `C55_bottom_rows_refuted`: `middleRows` and `bottomRows` throw unless they start at row 0; column indices are not checked.
* `C56_search_refuted`, `C56_comment_refuted`, `C56_empty_refuted`: `searchsorted` is wrong for unsorted queries, its comment is wrong at entries, `interp2d` fails on an empty table.

### trajopt
* `C57_repeated_refuted`, `C57_refused_update_refuted`, `C57_superset_refuted`: repeated names lose values; a refused update leaves a mixed output; `isSuperset` rejects equal sets.
* `C60_refuted`, `C89_order_refuted`: `value()` of the equality constraints squares the deviation, the linearisation does not; rows of the inequality constraints come in another order.
* `C61_refuted`: acceleration terms over two steps, jerk terms over up to three steps and negative first steps throw or assert.
* `C62_refuted`: with time, `fixed_dofs = n_dof` fixes the time variables.
* `C63_refuted`: with two adjacent fixed steps the second is treated as free; the intended exception is unreachable.
* `C64_refuted`, `C64_unread`*: `safety_margin_buffer` is read but refused; `type` and `use_time` are accepted but never read.
* `C67_refuted`, `C67_zero_hash_refuted`: collision results are cached by a hash alone, so colliding inputs share results; hash 0 dereferences null.
* `C68_misaligned_refuted`: without assertions the expressions are paired with the wrong contacts when some link does not move.
* `C69_refuted`: with `NDEBUG` the subset singularity term is evaluated at uninitialised joint values, since the call that fills them is an argument of `assert`.
* `C90_refuted`: Cartesian velocity terms ending at the last step are accepted but throw in `hatch`.
* `C91_refuted`: a total time term in a problem without time uses the last joint as time.
* `C94_both_refuted`: a joint term of type cost, constraint and time adds nothing; cost and constraint adds only the cost. Missing coefficients default to 1* (the header says 0).
* `C95_refuted`: timed accelerations divide by the inverse time steps.
* `C97_refuted`: the pose Jacobian is wrong when both frames move.
* `C98_refuted`: equal non-zero pose tolerances are ignored.
* `C99_refuted`: the singularity cost rises with the distance from the singularity, once the smallest singular value exceeds 0.1.
* `C100_refuted`, `C100_unsatisfiable`*: the total-time constraint with its default limit 0 demands total time 0.
* `C96_cost`*: the Cartesian velocity cost is at least twice the limit per axis, however slow the motion.
* `C108_second_refuted`: the numerical continuous collision constraint passes the perturbed second state as the first one, so its columns for the second state contain the difference of the states divided by 1e-8.
* `C108_throws_refuted`: it throws for a set that has no error at the free end; the analytic constraint reports minus the buffer.
* `C109_null_refuted`: one null variable is dereferenced, as the check is for both being null (also in `continuous_collision_constraint.cpp` 57 and 260).
* `C109_set_bounds_refuted`: setBounds requires one bound and shrinks the values to one row, while the Jacobian keeps all rows.
* `C110_reuse_refuted`: stepSQPSolver compares the sizes of the problem before and after convexify(), not with those of the solver: a used solver given an already convexified problem of another size runs into the assertion of updateLinearConstraintsMatrix.
* `C110_ignored_refuted`: the result of updateBounds in the trust region loop is ignored; after a refusal the loop solves with bounds other than the new ones.
* `C110_status_refuted`: the status "failed" of the OSQP solver is never reset by a later success.
* `C111_gradient_refuted`: gradient entries below 1e-7 are dropped, so costs with small coefficients vanish.
* `C112_upper_refuted`: the warm start divides by the coefficient -1 of the slack variable of an upper bound and takes the positive part, so a violated upper bound gets no slack.
* `C112_alignment_refuted`: the warm start reads row k of the QP for constraint set k, although the rows begin with those of the penalty costs and sets can have several rows or none.
* `C112_range_refuted`: with more constraint sets than rows (empty sets) it reads a row that does not exist.
* `C113_stateless_old_refuted`: trajopt's discrete evaluator keeps its maps of link poses between calls; a link that the kinematics stop reporting keeps the pose of an earlier call instead of raising an error.
* `C114_end_refuted`: a contact at the fixed end of a subdivided cast motion is kept (with zero scale for the free end), as the loop over segments never reaches last_state_idx; in an unsubdivided motion it is dropped. Both libraries; depends on the reading of tesseract's addInterpolatedCollisionResults.
* `C115_cast_refuted`: for cast contacts between the ends, trajopt_common's getGradient combines the Jacobian at the time of contact with the link rotation of the start (or end) of the motion.
* `C115_discrete_refuted`: for contacts at interpolated states, trajopt's GetGradient combines the Jacobian at the end of the motion with the link rotation at the time of contact.
* `C116_continuous_refuted`: in trajopt the check type CONTINUOUS is still subdivided by longest_valid_segment_length; the length that hatch computes for it (`lvs`, problem_description.cpp 1721 and 1781) is never used.
* `C117_types_refuted`: jsoncpp's conversions let through fractions for integers (truncated), null for every scalar, a scalar for a list (it becomes empty: `"fixed_timesteps": 3` fixes nothing) and an object for a list.
* `C118_unknown_refuted`: misspelt members of basic_info and opt_info (and of the document itself) are ignored, unlike those of params.
* `C118_limits_refuted`: dt_lower_lim above 1 or dt_upper_lim below 1 alone is refused, as the other limit defaults to 1.
* `C118_solver_refuted`: `"convex_solver": "OSQP"` selects QPOASES (the two tables of C46).
* `C118_opt_refuted`: opt_info is read but OptimizeProblem never uses it; it sets its own four parameters (`C118_optimizer`).
* `C119_rotation_refuted`: the quaternions of frame offsets are neither checked nor normalised, so the offset can be no rigid motion.
* `C119_steps_refuted`: the timestep of a pose term is not compared with n_steps; negative evaluator types are accepted.
* `C119_shipped_refuted`: of the documents in trajopt_common/data/config, arm_around_table_continuous.json (term type "joint") and arm_around_table_time.json ("use_time" given as text) are refused.
* `C120_alias_refuted`: decode announces the legacy alias `buffer` of `collision_margin_buffer` but does not read it.
* `C120_inplace_refuted`: decode called on a CollisionCoeffData that has pairs keeps them (Node::as is not affected).
* `C121_transitive_refuted`, `C121_redundant_refuted`, `C121_infinite_refuted`: operator== is not transitive, tells apart objects that no coefficient query tells apart, and is false between an object with an infinite coefficient and itself.
* `C122_frames_refuted`: the analytic Jacobian of the pose constraint (off by default) turns the columns into the target frame and then adds them to a pose given in the base frame; with a turned target frame the rotational part is turned twice.
* `C123_again_refuted`: a second optimize() without initialize() empties the log files and writes rows without a heading, as the heading depends on n_func_evals == 1.
* `C123_unopened_refuted`: if a log file cannot be opened (log_dir missing), its null stream is handed to fclose.
* `C123_comma_refuted`: names are written unquoted; a comma in a name shifts the heading.
* `C124_links_refuted`: the heading of the trajectory file has seven columns for one pose, the rows have seven for every link the kinematics return.
* `C124_glued_refuted`: the name of a link is written directly behind the number before it, so the last joint's column holds text as well.
* `C124_first_refuted`: the callback runs before the first evaluation, so the first block of rows lacks the costs and constraints.
* `C125_construct_refuted`: NodesObserver's constructor calls shared_from_this() before a shared pointer owns the object: no observer can be made (bad_weak_ptr).
* `C126_early_refuted`: with Gurobi a variable returned by addVar cannot be used before update(): constraints, removal and bounds abort, setObjective fails an assertion; the other backends accept all of these.
* `C126_quad_refuted`: addIneqCnt(QuadExpr) returns an empty Cnt; removing it dereferences a null pointer, so the constraint cannot be removed.
* `C126_stale_refuted`: optimize() lets Gurobi drop removed columns without updating the indices; getVarValues then answers with another variable's value or aborts.
* `C126_removed_refuted`: a removed Var keeps its index after update(); setting its bounds changes another variable.
* `C126_terms_refuted`: setObjective ignores the return value of GRBaddqpterms: with one bad variable all quadratic terms are lost silently.
* `C129_infeasible_refuted`: OSQP's dual infeasible status and BPMPD's code 3 (objective unbounded below) are reported as CVX_INFEASIBLE although points satisfying all constraints exist.
* `C129_again_refuted`: qpOASES's hotstart returns the number of recalculations it used in nWSR, and the same variable is then the limit of the fallback init (qpoases_interface.cpp 229–243); after a hot start that used none, the fallback may do none, and a problem that was CVX_SOLVED becomes CVX_FAILED. That nWSR is in/out is recollected from qpOASES's manual.
* `C133_linear_refuted`: getClosestFeasiblePoint moves every variable to at least 1/1000 below its upper limit, without regard to the problem's linear constraints, and nothing at the end checks these: a start that satisfies everything and has a fixed variable at its upper limit can end as OPT_CONVERGED with the linear constraint off by 1/1000, ten times the constraint tolerance.
* `C135_range_refuted`: a constraint that keeps a range in one row (RangeBoundHandling::kKeepAsIs) is accepted by its constructor and by addConstraintSet(); setup() succeeds and the first convexify() throws "Unsupported bounds type!".
* `C136_tolerance_refuted`: JointPosEqConstraint and the like return the *squared* deviation as the value of the constraint (trajectory_costs.cpp), so that cnt_tolerance = 1e-4 allows a deviation of 1e-2, and the improvement threshold stops the run at once while a constraint is 20 tolerances from its target although the QP step would meet it. What holds is `C136_converged`.
* `C136_fixed_refuted`: a fixed step at an upper joint limit is returned 1e-3 below it with OPT_CONVERGED: getClosestFeasiblePoint moves the start, and no step is taken back when the gain is below min_approx_improve. What holds is `C136_limits`.
* `C137_opt_refuted`: the whole way from a document with `"opt_info": {"cnt_tolerance": 1e-6}` to OPT_CONVERGED with a violation of 4e-6 (see `C118_opt_refuted`).
* `C138_single_refuted`: `SingleTimestepCollisionEvaluator::Plot` passes `nearest_points[0]` (world frame) to `calcJacobian` and multiplies `pose2` by it, where the other evaluators use `nearest_points_local[0]`; the arrow ends elsewhere. `C138_second_refuted`: it draws no arrow for the second link of a contact either.
* `C138_constraint_refuted`: `CollisionConstraint` does not derive from `Plotter` (its `Plot(const DblVec&)` is declared but not defined), so `PlotCosts` and `PlotProb` show none of its contacts.
* `C138_timed_refuted`: `PlotProb` cuts all variables into rows of `joint_names.size()`; with time variables the trajectory shown mixes joint values and time steps. `PlotCosts` (C138_timed) hands states with one value more than names to the plotter.
* `C139_default_refuted`: `dt_lower_lim` and `dt_upper_lim` both default to 1. A trajectory that starts with inverse time steps 1 is first moved to 0.999 (`getClosestFeasiblePoint` stays 1e-3 below the upper limit, see C44); when nothing is gained there, the run reports `OPT_CONVERGED` and returns time steps of 1000/999, outside of the limits it was given and started within.
* `C141_open_refuted`, `C141_inside_refuted`, `C141_centre_refuted`, `C141_empty_refuted`: `Mesh::ComputeVolume`
  refers the volume to the mean of all points, so for a mesh with a hole a point that no triangle uses changes
  it; `IsInside` is right for convex meshes only (a corner of two tetrahedra in one mesh is "not inside");
  `ComputeCenter` divides by the area without a check, so a mesh without surface has a NaN centre; without
  points it returns a vector that nothing has written, and `ComputeDiagBB` returns 0 but leaves `m_diag` at 1.
* `C142_own_refuted`, `C142_pop_refuted`, `C142_resize_refuted`: `SArray::PushBack(a[0])` on a full array reads its
  argument after the block it is in was deleted; `PopBack` does not check for an empty array, the size wraps
  round and the next `PushBack` writes far outside; `Resize` only sets the size, so the "new" elements are
  whatever was there.
* `C143_copy_refuted`, `C143_foreign_refuted`, `C143_foreign_size_refuted`: `CircularList`'s copy constructor never sets
  `m_head` and `m_size` before it adds to them (`C143_copy`: undefined for every list that has elements, and the
  copy of an empty one cannot be used); `Delete(element)` does not look whose element it is.
* `C144_exact_refuted`: with `full_hessian`, `CostFromFunc::convex` of z^2 at its minimum has its own minimum elsewhere and
  promises an improvement there is not: `calcGradHess` takes forward differences for the gradient, off by half the
  step times the second derivative, where `calcGradAndDiagHess` takes central ones.
* `C145_nonstrict_refuted`: `quickSort` of two equal elements with a comparison that holds for equal elements reads past the
  end: its inner loops have no bound of their own.
* `C146_neg_refuted`, `C146_less_refuted`: `Int128::operator-()` computes `-(int64_t)low`, which overflows for the low word 2^63
  (so `Int128::mul(-2, 1LL << 62)` is undefined); `Int128::operator<` compares as unsigned: -1 is not less than 0.
* `C147_overflow_refuted`: `Rational128::compare(int64_t)` multiplies the denominator and the integer in 128 bits and does not
  notice an overflow: 2^126/2^126 is "greater" than 4. Comparing two quotients uses 256 bits and is exact.
* `C148_own_refuted`, `C148_assign_refuted`: `btAlignedObjectArray::push_back(const T&)` grows before it reads its argument, so
  `a.push_back(a[0])` on a full array reads freed memory; `copyFromArray` (and so `operator=` and the copy constructor) constructs
  elements where `resize` has left or put constructed ones, which are never destroyed.
* `C149_distinct_refuted`, `C149_turn_refuted`: the hull is that of the points rounded towards the centre of their box on a grid of
  10217 cells along each axis: different points become one, and four points may change their orientation. The dead branch
  `if (minAxis == maxAxis)` is never taken (`C149_grid`: the axes differ without it).
* `C150_twice_refuted`, `C150_zero_refuted`: the pools of the convex hull check nothing: an object freed twice is given to two
  holders, and after `setArraySize(0)` the next object lies outside its array. `compute` returns before
  `setArraySize` when there are no points, and `removeEdgePair`, the only caller of `freeObject`, frees two different edges (C151).
* `C152_self_refuted`: `receiveNearbyFaces` called by a vertex on itself links its faces into a circle and never returns. The
  function does not check it; whether `shiftFace` can push the vertex that is kept among those removed is not modelled.
* `C153_kept_refuted`: the loop that takes a part out of the hull does not spare the vertex that is to be kept: if an edge leads to it
  from the part, its edges are removed too (and it would then be given its own faces, `C152_self_refuted`). The loop relies on
  `shiftFace` having cut all such edges.
