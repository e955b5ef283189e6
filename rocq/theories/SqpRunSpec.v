(** * What is expected of a run of TrustRegionSQPSolver::solve through OSQP *)
From Coq Require Import List Bool Arith Reals.
From Verif Require Import Num RSums Common IfoptModel IfoptProofs ExprsModel ModelingModel QpModel QpSpec QpProps QpCaseProps OsqpModel OsqpProps SqpRunModel.
Import ListNotations.
Local Open Scope R_scope.

Definition penalties (s : sources R) := hinges s ++ absolutes s.
(** a problem that has been set up; wherever the variables are, its sets are usable, and the squared costs have rows if there are any *)
Definition problem_ok (p0 : qp R) : Prop :=
  let n := length (q_x p0) in let s := q_src p0 in
  reach p0 /\ q_init p0 = true /\ (0 < n)%nat /\ forall x, length x = n ->
    all_usable (set_variables p0 x) /\ nonneg_objectives (set_variables p0 x) /\
    (objectives s = [] \/ (0 < rows_at x (objectives s))%nat) /\
    (length (merits s) <= n + rows_at x (penalties s) + rows_at x (merits s))%nat.
(** coefficients: those of hinge and absolute costs are zero or noticeable, those of constraints at least one; no constraint set is
    ever empty *)
Definition weights_ok (p0 : qp R) : Prop := forall x, length x = length (q_x p0) ->
  Forall (fun t => Forall (fun r => r_w r = 0 \/ / 10 ^ 7 <= r_w r) (term_rows x t)) (penalties (q_src p0)) /\
  Forall (fun t => nonempty x t = true /\ Forall (fun r => 1 <= r_w r) (term_rows x t)) (merits (q_src p0)).

(** the library: accepts new bounds, returns a value for each variable, and if it reports success, then its solution is feasible up to
    [eps] and optimal up to [delta]; bounds of 1e30 are none *)
Definition accepts (L : lib) : Prop := forall i, l_bnd L i = true.
Definition sized (L : lib) : Prop := forall i w, length (l_sol L i w) = o_nv w.
Definition honest (eps delta : R) (L : lib) : Prop := forall i w H g A lo hi,
  o_hess w = Held H -> o_grad w = Held g -> o_mat w = Held A -> o_bnd w = Held (lo, hi) -> l_solved L i w = true ->
  let z := l_sol L i w in
  Forall2 (fun r lu => fst lu - eps <= srow_dot r z <= snd lu + eps) A (combine lo hi) /\
  forall y, length y = o_nv w ->
    Forall2 (fun r lu => (fst lu <= - 10 ^ 30 \/ fst lu <= srow_dot r y) /\ (10 ^ 30 <= snd lu \/ srow_dot r y <= snd lu)) A (combine lo hi) ->
    osqp_objective (o_nv w) H g z <= osqp_objective (o_nv w) H g y + delta.

(** within the bounds of the variables up to [eps] *)
Definition keeps (eps : R) (p0 : qp R) (x : list R) : Prop :=
  Forall2 (fun v b => (forall l, b_lo b = Some l -> l - eps <= v) /\ (forall u, b_hi b = Some u -> v <= u + eps)) x (q_bnds p0).
(** within the bounds of the variables and the trust region around [x] *)
Definition region (p0 : qp R) (x : list R) (box : R) (y : list R) : Prop :=
  Forall2 (fun v b => inside b v) y (q_bnds p0) /\ length y = length x /\ forall i, (i < length x)%nat -> Rabs (nth i y 0 - nth i x 0) <= box.

(** the merit function, and its convexification at [x]: costs plus violations of constraints times merit coefficients *)
Definition exact_merit (p0 : qp R) (mu x : list R) : R :=
  rsum (exact_square x) (objectives (q_src p0)) + rsum (exact_viol x) (penalties (q_src p0)) +
  rsum (fun mt => fst mt * exact_viol x (snd mt)) (combine mu (merits (q_src p0))).
Definition convex_merit (p0 : qp R) (mu x y : list R) : R :=
  rsum (gn_cost x y) (objectives (q_src p0)) + rsum (set_penalty x y) (penalties (q_src p0)) +
  rsum (fun mt => fst mt * set_penalty x y (snd mt)) (combine mu (merits (q_src p0))).
(** what the tolerances of the library and the entries below 1e-7 that are dropped can amount to *)
Definition coeff_sum (x : list R) (t : term R) : R := rsum r_w (term_rows x t).
Definition slop (eps delta : R) (p0 : qp R) (mu x : list R) (box : R) : R :=
  let s := q_src p0 in let D := rsum Rabs x + INR (length x) * (box + 2 * eps) in
  delta + eps * (3 * (rsum (coeff_sum x) (penalties s) + rsum (fun mt => fst mt * coeff_sum x (snd mt)) (combine mu (merits s))) + INR (rows_at x (penalties s))) +
  2 * / 10 ^ 7 * (D ^ 2 + D).
