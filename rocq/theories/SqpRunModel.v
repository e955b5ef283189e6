(** * TrustRegionSQPSolver::solve with TrajOptQPProblem and OSQPEigenSolver

    Sources: trajopt_optimizers/trajopt_sqp/src/trust_region_sqp_solver.cpp, trajopt_qp_problem.cpp and osqp_eigen_solver.cpp.

    SqpModel.v has the control flow with the QP problem and the QP solver left open; here they are filled in with the
    TrajOptQPProblem of QpModel.v and the OSQPEigenSolver of OsqpModel.v.  What stays open: the cost and constraint sets
    (any functions of the variables), the solver library (its i-th call may do anything), the callbacks and the clock.
    A failed assertion or an exception in any of them leaves the state [Undef]; it stays so.
    Simplifications: setBoxSize() and setConstraintMeritCoeff() of the problem take effect at the next convexify() (nothing reads
    the bounds or the coefficients in between); setWarmStart(), called where the solver is set up anew, is called after every
    convexify(); the start it computes is not passed on, as the library may start anywhere; callbacks do not touch the problem, the
    solver or the results; numbers are reals. *)
From Coq Require Import List ZArith Bool Arith Reals.
From Verif Require Import Num Common IfoptModel ExprsModel QpModel QpSpec OsqpModel.
From Verif Require SqpModel.
Import ListNotations.
Local Open Scope R_scope.

(** the library: results of the updates in place of the i-th transfer and of the bounds alone, of osqp_setup, whether it reports a
    solution for the data it was given, and the solution *)
Record lib := {
  l_oks : nat -> bool * bool * bool * bool; l_bnd : nat -> bool; l_up : nat -> bool; l_solved : nat -> solver R -> bool; l_sol : nat -> solver R -> list R }.

Section Run.
  Context {C : Type} (L : lib) (p0 : qp R).
  Local Notation n := (length (q_x p0)).

  (** the QP problem and the QP solver; the number of calls of the library; the rest of the world *)
  Record world := { w_state : outcome (qp R * solver R); w_calls : nat; w_rest : C }.
  Definition next (w : world) (st : outcome (qp R * solver R)) : world := {| w_state := st; w_calls := S (w_calls w); w_rest := w_rest w |}.
  Definition with_rest (w : world) (c : C) : world := {| w_state := w_state w; w_calls := w_calls w; w_rest := c |}.
  Definition of_res {A} (r : res A) : outcome A := match r with Val a => Ok a | _ => Undef end.

  (** setup() has been called; init(), trust_region_sqp_solver.cpp 45-64, evaluates the start *)
  Definition first_world (c : C) : world :=
    {| w_state := obind (of_res (exact_costs p0)) (fun _ => obind (of_res (exact_violations p0)) (fun _ => Ok (p0, solver_new))); w_calls := 0; w_rest := c |}.
  (** stepSQPSolver, 206-244 *)
  Definition w_convexify (w : world) (x box mu : list R) : world :=
    next w (obind (w_state w) (fun ps => let '(p, s) := ps in
      obind (of_res (rbind (set_box (set_variables p x) box) (fun p => rbind (set_merit p mu) (convexify sqrt)))) (fun p' =>
      obind (prepare (l_oks L (w_calls w)) (length (c_grad (q_cvx p)), length (c_mat (q_cvx p))) (qp_data p') s) (fun s =>
      obind (of_res (warm_start (d_cols (qp_data p')) p')) (fun _ => Ok (p', s)))))).
  (** scaleBoxSize() or setBoxSize() and updateBounds(), 287-288, 298-299, 341-342, 364-365 *)
  Definition w_bounds (w : world) (x box : list R) : world :=
    next w (obind (w_state w) (fun ps => let '(p, s) := ps in
      obind (of_res (set_box (set_variables p x) box)) (fun p' =>
      obind (update_bnds (l_bnd L (w_calls w)) (d_lo (qp_data p')) (d_hi (qp_data p')) s) (fun r => Ok (p', snd r))))).
  (** solve() and getSolution(), 376-380, and whether the evaluations 383-403 go through *)
  Definition w_evals (p : qp R) (z : list R) : outcome unit :=
    obind (of_res (eval_convex_violations p z)) (fun _ => obind (of_res (eval_convex_costs p z)) (fun _ =>
    obind (of_res (exact_costs (set_variables p (firstn n z)))) (fun _ => obind (of_res (exact_violations (set_variables p (firstn n z)))) (fun _ => Ok tt)))).
  Definition w_solve (w : world) : world * option (list R) :=
    match w_state w with
    | Ok (p, s) =>
        match osqp_solve (l_up L (w_calls w)) (l_solved L (w_calls w) s) s with
        | (Some a, true, s) => let z := l_sol L (w_calls w) a in
            match w_evals p z with
            | Ok _ => (next w (Ok (p, s)), Some z)
            | _ => (next w Undef, None)
            end
        | (_, _, s) => (next w (Ok (p, s)), None)
        end
    | _ => (next w Undef, None)
    end.
  Definition or_nil (r : res (list R)) : list R := match r with Val l => l | _ => [] end.
  Definition w_viols (w : world) (z : list R) : list R := match w_state w with Ok (p, _) => or_nil (eval_convex_violations p z) | _ => [] end.
  Definition w_costs (w : world) (z : list R) : list R := match w_state w with Ok (p, _) => or_nil (eval_convex_costs p z) | _ => [] end.
  (** getExactCosts() and getExactConstraintViolations() of the sets of the problem at [x] *)
  Definition costs_at (x : list R) : list R := or_nil (exact_costs (set_variables p0 x)).
  Definition viols_at (x : list R) : list R := or_nil (exact_violations (set_variables p0 x)).

  Definition run_env (callback : C -> SqpModel.results R -> C * list bool) (clock : C -> C * R) : SqpModel.env R world :=
    SqpModel.Build_env n (length (merits (q_src p0))) costs_at viols_at w_convexify w_bounds w_solve w_viols w_costs
      (fun w r => let (c, a) := callback (w_rest w) r in (with_rest w c, a))
      (fun w => let (c, t) := clock (w_rest w) in (with_rest w c, t)).
  (** solve() of a new solver for the problem [p0] *)
  Definition run_solve (P : SqpModel.sqp_params R) callback clock (fuel pfuel : nat) (c : C) : outcome (SqpModel.sst R world) :=
    SqpModel.solve P (run_env callback clock) fuel pfuel (q_x p0) (first_world c).
End Run.
Arguments world : clear implicits.
