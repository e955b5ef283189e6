(** * Properties C01-C08 and C70: the trajopt_sqp solver *)
From Coq Require Import List ZArith QArith Reals Lra Lia Bool Floats.SpecFloat.
From Verif Require Import Num NumFacts SqpModel SqpSpec SqpProofs SqpRProofs SqpExamples SqpExampleProofs.
Import ListNotations.

(** ** C01 *)
Theorem C01_converged_is_feasible :
  forall (T : Type) (NT : Num T) (OL : OrdLaws T) (W : Type) (P : sqp_params T) (E : env T W)
         fuel pfuel vars0 w s,
    length vars0 = n_nlp E ->
    solve P E fuel pfuel vars0 w = Ok s -> status s = kConverged ->
    p_vars s = firstn (n_nlp E) (e_vars (best (res s))) /\
    Forall (fun v => nltb v (cnt_tolerance P) = true) (exact_viols E (p_vars s)).
Proof. exact @solve_converged_feasible_vars. Qed.
Print Assumptions C01_converged_is_feasible.

Example C01_ex : exists s, good_run = Ok s /\ status s = kConverged /\ length (trace s) = 19%nat /\ p_vars s = [1%Q].
Proof. eexists. split; [vm_compute; reflexivity|]. repeat split; reflexivity. Qed.

(** ** C02 *)
Theorem C02_result_coherent :
  forall (T : Type) (NT : Num T) (W : Type) (P : sqp_params T) (E : env T W) fuel pfuel vars0 w s,
    length vars0 = n_nlp E ->
    solve P E fuel pfuel vars0 w = Ok s ->
    p_vars s = firstn (n_nlp E) (e_vars (best (res s))) /\
    e_viols (best (res s)) = exact_viols E (p_vars s) /\
    e_costs (best (res s)) = exact_costs E (p_vars s) /\
    e_merit (best (res s)) =
      nadd (vsum (exact_costs E (p_vars s))) (vdot (exact_viols E (p_vars s)) (merit_coeffs (res s))).
Proof. exact @solve_coherent. Qed.
Print Assumptions C02_result_coherent.

(** The vector kept in [best_var_vals] is the whole QP solution, slack variables included: the
    literal claim that it equals the decision variables is false. *)
Theorem C02_best_var_vals_are_decision_variables_refuted :
  exists s, good_run = Ok s /\ p_vars s = [1%Q] /\ e_vars (best (res s)) = [1%Q; 7%Q].
Proof. exact good_run_slack. Qed.
Print Assumptions C02_best_var_vals_are_decision_variables_refuted.

Example C02_ex : exists s, fail_run = Ok s /\ p_vars s = [0%Q] /\ length (trace s) = 24%nat.
Proof. eexists. split; [vm_compute; reflexivity|]. repeat split; reflexivity. Qed.

(** ** C03 *)
Theorem C03_accepted_steps_monotone :
  forall (W : Type) (P : sqp_params R) (E : env R W) fuel pfuel vars0 w s,
    length vars0 = n_nlp E ->
    solve P E fuel pfuel vars0 w = Ok s ->
    merit_run (vsum (exact_costs E vars0) +
               vdot (exact_viols E vars0) (repeat (initial_merit_error_coeff P) (n_cnt E)))%R
      (trace s) (e_merit (best (res s))).
Proof. exact @solve_merit_run. Qed.
Print Assumptions C03_accepted_steps_monotone.

Theorem C03_sufficient_decrease :
  forall (W : Type) (P : sqp_params R) (E : env R W) fuel pfuel vars0 w s,
    length vars0 = n_nlp E ->
    (0 <= improve_ratio_threshold P)%R -> (/ 10 ^ 12 <= min_approx_improve P)%R ->
    solve P E fuel pfuel vars0 w = Ok s ->
    forall a b, In (EvAccept a b) (trace s) ->
      (a - b >= improve_ratio_threshold P * min_approx_improve P)%R.
Proof. exact @solve_decrease. Qed.
Print Assumptions C03_sufficient_decrease.

(** A run over the reals with one accepted step: cost 9 replaced by cost 4. *)
Example C03_ex : exists s,
  solve real_params real_env 5 5 [3%R] tt = Ok s /\
  trace s = [EvAccept 9%R 4%R; EvCallback true; EvQP true; EvConvexify] /\
  length [3%R] = n_nlp real_env /\
  (0 <= improve_ratio_threshold real_params)%R /\ (/ 10 ^ 12 <= min_approx_improve real_params)%R.
Proof. exact real_run. Qed.

(** ** C04 *)
Theorem C04_trust_region_loop_bounded :
  forall (W : Type) (P : sqp_params R) (E : env R W),
    (0 <= trust_shrink_ratio P)%R -> (trust_shrink_ratio P < 1)%R -> (0 < min_trust_box_size P)%R ->
    (0 < n_nlp E)%nat ->
    forall N f s m, p_box s = box_size (res s) -> vmaxc (box_size (res s)) = Some m ->
      (m * trust_shrink_ratio P ^ N < min_trust_box_size P)%R ->
      exists s' ev, tr_loop P E (N + 1) f s = Ok s' /\ trace s' = ev ++ trace s /\ (qp_solves ev <= N + 1)%nat.
Proof. exact @tr_loop_bounded. Qed.
Print Assumptions C04_trust_region_loop_bounded.

Theorem C04_solve_terminates :
  forall (W : Type) (P : sqp_params R) (E : env R W),
    (0 <= trust_shrink_ratio P)%R -> (trust_shrink_ratio P < 1)%R -> (0 < min_trust_box_size P)%R ->
    (0 < n_nlp E)%nat -> (forall x, length (exact_viols E x) = n_cnt E) ->
    forall vars0 w, length vars0 = n_nlp E ->
    exists K, forall fuel pfuel, (K <= fuel)%nat -> (K <= pfuel)%nat ->
      exists s, solve P E fuel pfuel vars0 w = Ok s /\ solve P E K K vars0 w = Ok s.
Proof. exact @solve_terminates. Qed.
Print Assumptions C04_solve_terminates.

Example C04_ex :
  (0 <= trust_shrink_ratio real_params)%R /\ (trust_shrink_ratio real_params < 1)%R /\
  (0 < min_trust_box_size real_params)%R /\ (0 < n_nlp real_env)%nat /\
  (forall x, length (exact_viols real_env x) = n_cnt real_env) /\
  (initial_trust_box_size real_params * trust_shrink_ratio real_params ^ 4 < min_trust_box_size real_params)%R.
Proof. exact real_params_ok. Qed.

(** Without the condition on the shrink ratio the loop does not end. *)
Theorem C04_needs_shrinking_refuted :
  forall fuel, solve no_shrink_params always_rejecting fuel 5 [0%Q] tt = NoFuel.
Proof. exact no_shrink_diverges. Qed.
Print Assumptions C04_needs_shrinking_refuted.

(** ** C05 *)
Theorem C05_max_iterations_bounds_qps_refuted :
  exists s, reject_run = Ok s /\ length [3%Q] = n_nlp rejecting /\
    max_iterations (defaults (T := Q) 1 (3 # 2)) = 1%Z /\ qp_solves (trace s) = 4%nat.
Proof. exact reject_run_4. Qed.
Print Assumptions C05_max_iterations_bounds_qps_refuted.

(** What holds: a new convexification is started only while fewer than [max_iterations] QPs have
    been solved.  Missing for C05: the limit is not looked at inside the trust-region loop. *)
Theorem C05_max_iterations_partial :
  forall (T : Type) (NT : Num T) (W : Type) (P : sqp_params T) (E : env T W) fuel pfuel vars0 w s,
    solve P E fuel pfuel vars0 w = Ok s ->
    forall newer older, trace s = newer ++ EvConvexify :: older ->
      (Z.of_nat (qp_solves older) < max_iterations P)%Z.
Proof. exact @solve_convexify_budget_spec. Qed.
Print Assumptions C05_max_iterations_partial.

(** Over the reals the excess is bounded by one trust-region loop. *)
Theorem C05_max_iterations_excess_partial :
  forall (W : Type) (P : sqp_params R) (E : env R W) N fuel s s' m,
    (0 <= trust_shrink_ratio P)%R -> (trust_shrink_ratio P < 1)%R -> (0 < min_trust_box_size P)%R ->
    (0 < n_nlp E)%nat ->
    p_box s = box_size (res s) -> vmaxc (box_size (res s)) = Some m ->
    (m * trust_shrink_ratio P ^ N < min_trust_box_size P)%R ->
    runTrustRegionLoop P E fuel s = Ok s' ->
    exists ev, trace s' = ev ++ trace s /\ (qp_solves ev <= N + 1)%nat.
Proof. exact @run_qp_bound_spec. Qed.
Print Assumptions C05_max_iterations_excess_partial.

(** ** C06 *)
Theorem C06_callback_stops_refuted :
  exists s, stop_run = Ok s /\ status s = kIterationLimit /\ qp_solves (trace s) = 5%nat /\
    Forall (fun e => forall ok, e = EvCallback ok -> ok = false) (trace s).
Proof. exact stop_run_5. Qed.
Print Assumptions C06_callback_stops_refuted.

(** kStoppedByCallback (and kQPSolveFailed) is never the final status of any run. *)
Theorem C06_final_status_never_stopped :
  forall (T : Type) (NT : Num T) (W : Type) (P : sqp_params T) (E : env T W) fuel pfuel vars0 w s,
    solve P E fuel pfuel vars0 w = Ok s ->
    status s = kConverged \/ status s = kPenaltyIterationLimit \/
    status s = kIterationLimit \/ status s = kTimeLimit.
Proof. exact @solve_status_set. Qed.
Print Assumptions C06_final_status_never_stopped.

(** What holds: after a false answer the step is dropped and the trust-region loop is left; the
    next observable action, if any, is a new convexification or a penalty adjustment. *)
Theorem C06_callback_stops_partial :
  forall (T : Type) (NT : Num T) (W : Type) (P : sqp_params T) (E : env T W) fuel pfuel vars0 w s,
    solve P E fuel pfuel vars0 w = Ok s ->
    forall newer e older, trace s = newer ++ e :: EvCallback false :: older ->
      e = EvConvexify \/ exists v b a, e = EvPenalty v b a.
Proof. exact @solve_stop_ok. Qed.
Print Assumptions C06_callback_stops_partial.

Example C06_ex : exists s newer older,
  stop_run = Ok s /\ trace s = newer ++ EvConvexify :: EvCallback false :: older.
Proof. exact stop_run_split. Qed.

(** ** C07 *)
Theorem C07_qp_failure_reported_refuted :
  exists s, fail_run = Ok s /\ (forall w, snd (qp_solve failing w) = None) /\
    status s = kPenaltyIterationLimit /\ qp_solves (trace s) = 13%nat.
Proof. exact fail_run_status. Qed.
Print Assumptions C07_qp_failure_reported_refuted.

(** What holds: the variables stay at the initial point and each trust-region loop makes at most
    max_qp_solver_failures + 1 calls.  Missing: the failure is not reported in the status. *)
Theorem C07_qp_failure_partial :
  forall (T : Type) (NT : Num T) (W : Type) (P : sqp_params T) (E : env T W),
    (forall w, snd (qp_solve E w) = None) ->
    (forall fuel pfuel vars0 w s, solve P E fuel pfuel vars0 w = Ok s -> e_vars (best (res s)) = vars0) /\
    (forall fuel s s', runTrustRegionLoop P E fuel s = Ok s' ->
       exists ev, trace s' = ev ++ trace s /\
         (Z.of_nat (qp_solves ev) <= Z.max 0 (max_qp_solver_failures P) + 1)%Z).
Proof. exact @failing_solver. Qed.
Print Assumptions C07_qp_failure_partial.

(** ** C08 *)
Theorem C08_penalty_rule :
  forall (W : Type) (P : sqp_params R) (E : env R W) fuel pfuel vars0 w s,
    solve P E fuel pfuel vars0 w = Ok s ->
    forall v b a, In (EvPenalty v b a) (trace s) ->
      length a = length b /\
      (inflate_constraints_individually P = true -> length v = length b) /\
      (exists x, In x v /\ (cnt_tolerance P <= x)%R) /\
      forall i, (i < length b)%nat ->
        coeff_rule (inflate_constraints_individually P) (cnt_tolerance P) (merit_coeff_increase_ratio P)
          (nth i v 0%R) (nth i b 0%R) (nth i a 0%R).
Proof. exact @solve_penalty_rule. Qed.
Print Assumptions C08_penalty_rule.

Theorem C08_penalty_grows :
  forall (W : Type) (P : sqp_params R) (E : env R W) fuel pfuel vars0 w s,
    (1 <= merit_coeff_increase_ratio P)%R -> (0 <= initial_merit_error_coeff P)%R ->
    solve P E fuel pfuel vars0 w = Ok s ->
    forall v b a, In (EvPenalty v b a) (trace s) -> Forall2 Rle b a.
Proof. exact @solve_penalty_mono. Qed.
Print Assumptions C08_penalty_grows.

Theorem C08_penalty_count :
  forall (W : Type) (P : sqp_params R) (E : env R W) fuel pfuel vars0 w s,
    solve P E fuel pfuel vars0 w = Ok s ->
    penalty_changes (trace s) = 0%nat \/
    (INR (penalty_changes (trace s) - 1) < max_merit_coeff_increases P)%R.
Proof. exact @solve_penalty_count. Qed.
Print Assumptions C08_penalty_count.

(** A run over the reals in which a penalty adjustment really happens. *)
Example C08_ex : exists s,
  solve real_params pen_env 5 5 [3%R] tt = Ok s /\ In (EvPenalty [1%R] [10%R] [100%R]) (trace s).
Proof. exact pen_run. Qed.

(** A violation exactly at the tolerance blocks convergence but never increases a coefficient. *)
Theorem C08_violation_at_tolerance_grows_refuted :
  exists s, tol_run = Ok s /\ status s = kPenaltyIterationLimit /\ penalty_changes (trace s) = 5%nat /\
    merit_coeffs (res s) = [10%Q].
Proof. exact tol_run_5. Qed.
Print Assumptions C08_violation_at_tolerance_grows_refuted.

(** ** C70 *)
(** In binary64 a trial point whose exact merit is NaN is accepted, and the run still ends with
    kConverged at that point. *)
Theorem C70_nan_step_rejected_refuted :
  exists s, nan_run = Ok s /\ status s = kConverged /\
    In (EvAccept (f64_ofZ 5) S754_nan) (trace s) /\ e_merit (best (res s)) = S754_nan.
Proof. exact nan_run_accepts. Qed.
Print Assumptions C70_nan_step_rejected_refuted.
