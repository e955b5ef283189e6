(** * ConstructProblem and OptimizeProblem of trajopt for joint space problems

    Sources: trajopt/src/problem_description.cpp 378-408 (TrajOptResult, OptimizeProblem) and 410-541 (ConstructProblem),
    trajopt/include/trajopt/utils.hpp 17 (trajToDblVec), trajopt_sco/src/modeling.cpp 180-197 and 215-249 (OptProb),
    trajopt_sco/include/trajopt_sco/optimizers.hpp 92-133 (parameters), trajopt_sco/src/optimizers.cpp 126-136 (initialize).

    The terms are the four kinds of joint terms, without time (basic_info.use_time is false); the parts are those of
    TrajoptModel.v and TrajCostModel.v, and the optimizer is that of RunModel.v.  Names, the plotter and logging are left out;
    numbers are reals. *)
From Coq Require Import List ZArith Bool Arith Reals.
From Verif Require Import Num Common ScoExprModel ModelingModel ArrayModel TrajCostModel CollisionModel BackendModel SolveModel ScoOptModel TrajoptModel RunModel.
Import ListNotations.
Local Open Scope R_scope.

(** ProblemConstructionInfo: n_steps, the joint limits of the group, init_info, the current state, fixed_timesteps, fixed_dofs,
    cost_infos and cnt_infos *)
Record plan := {
  pl_steps : Z; pl_limits : list (R * R); pl_init : init; pl_data : mat R; pl_now : list R;
  pl_fixed_steps : list Z; pl_fixed_dofs : list Z;
  pl_costs : list (order * jterm R); pl_cnts : list (order * jterm R) }.

(** the constructors of the term infos, problem_description.hpp 442, 492, 537 and 582 *)
Definition supported (o : order) : Z := match o with Pos | Vel => 7 | Acc | Jerk => 3 end.
Definition info (t : order * jterm R) : tinfo := {| ti_type := jt_type (snd t); ti_supported := supported (fst t) |}.

(** ** The objects: value() and convex() of an added term; an Eigen assertion in value() counts as 0 here *)
Definition value_or {A} (d : A) (o : outcome A) : A := match o with Ok v => v | _ => d end.
Definition or_else {A} (d : A) (o : option A) : A := match o with Some v => v | None => d end.
Definition is_cost (a : added R) : bool := match a with AddJoint SideCost _ _ _ _ _ _ _ _ _ => true | _ => false end.
(** type() of a constraint *)
Definition is_cnt (equality : bool) (a : added R) : bool := match a with AddJoint SideCnt e _ _ _ _ _ _ _ _ => Bool.eqb e equality | _ => false end.
Definition cost_value (a : added R) (x : list R) : outcome R :=
  match a with
  | AddJoint _ true o v c t _ _ first last => eq_cost_value o v c t first last x
  | AddJoint _ false o v c t u l first last => ineq_cost_value o v c t u l first last x
  | AddVelTime _ _ _ _ _ _ _ _ => Undef
  end.
Definition cnt_value (a : added R) (x : list R) : outcome (list R) :=
  match a with
  | AddJoint _ true o v c t _ _ first last => eq_cnt_value o v c t first last x
  | AddJoint _ false o v c t u l first last => ineq_cnt_value o v c t u l first last x
  | AddVelTime _ _ _ _ _ _ _ _ => Undef
  end.
(** Constraint::violation, modeling.cpp 171 *)
Definition cnt_viol (a : added R) (x : list R) : outcome R :=
  obind (cnt_value a x) (fun vs => Ok (cnt_violation (if is_cnt true a then EQ else INEQ) vs)).
Definition cost_convex (a : added R) : list (op R) :=
  match a with
  | AddJoint _ true o v c t _ _ first last => eq_cost_convex (or_else (quad_const 0) (eq_cost o v c t first last))
  | AddJoint _ false o v c t u l first last => ineq_cost_convex (or_else [] (ineq_exprs o v c t u l first last))
  | AddVelTime _ _ _ _ _ _ _ _ => []
  end.
Definition cnt_convex (a : added R) : ccnts R :=
  match a with
  | AddJoint _ true o v c t _ _ first last => eq_cnt_convex (or_else [] (eq_exprs o v c t first last))
  | AddJoint _ false o v c t u l first last => ineq_cnt_convex (or_else [] (ineq_exprs o v c t u l first last))
  | AddVelTime _ _ _ _ _ _ _ _ => {| cc_eqs := []; cc_ineqs := [] |}
  end.

(** ** ConstructProblem, 410-541 *)
(** what the problem holds: vars_ with their limits, m_traj_vars, m_init_traj, the linear constraints, and costs_, eqcnts_ and
    ineqcnts_ in the order in which they were added *)
Record built := { b_vars : opt_prob R; b_cells : array nat; b_init : mat R; b_fixed : list (aff R); b_added : list (added R) }.
Definition construct (rtl : bool) (p : plan) : run built :=
  let n_dof := length (pl_limits p) in
  rdo (lift (check_time (map info (pl_costs p)) (map info (pl_cnts p)) false)) (fun _ =>
  rdo (traj_prob (pl_steps p) (Z.of_nat n_dof) false (pl_limits p) 0 0) (fun pv =>
  rdo (init_traj (pl_init p) (pl_now p) (pl_data p) (pl_steps p) false 0) (fun m =>
  rdo (check_init m (pl_steps p) n_dof false) (fun m =>
  rdo (fix_all rtl (snd pv) m n_dof false (pl_fixed_steps p) (pl_fixed_dofs p)) (fun fixed =>
  rdo (rmap (fun t => hatch_joint (fst t) (snd t) n_dof (snd pv)) (pl_costs p)) (fun a =>
  rdo (rmap (fun t => hatch_joint (fst t) (snd t) n_dof (snd pv)) (pl_cnts p)) (fun b =>
  Done {| b_vars := fst pv; b_cells := snd pv; b_init := m; b_fixed := fixed; b_added := concat a ++ concat b |}))))))).

(** getCosts and getConstraints, modeling.cpp 234-241 *)
Definition get_costs (b : built) : list (added R) := filter is_cost (b_added b).
Definition get_cnts (b : built) : list (added R) := filter (is_cnt true) (b_added b) ++ filter (is_cnt false) (b_added b).
(** the bounds a variable was created with; None is +-INFINITY *)
Definition bounds_of (inf : R) (v : vname * (option R * option R)) : R * R := (or_else (- inf) (fst (snd v)), or_else inf (snd (snd v))).
(** the problem as the optimizer sees it *)
Definition as_prob (inf : R) (b : built) : prob :=
  let bnds := map (bounds_of inf) (b_vars b) in
  {| f_vars := bnds; f_lin := map (pair false) (b_fixed b); f_lb := map fst bnds; f_ub := map snd bnds;
     f_costs := fun x => map (fun a => value_or 0 (cost_value a x)) (get_costs b);
     f_ncnt := length (get_cnts b);
     f_viols := fun x => map (fun a => value_or 0 (cnt_viol a x)) (get_cnts b);
     f_ccosts := fun _ => map cost_convex (get_costs b);
     f_ccnts := fun _ => map cnt_convex (get_cnts b) |}.

(** ** OptimizeProblem, 394-408 *)
(** optimizers.hpp 92-133 with 399-402; [tmax] is numeric_limits<double>::max() *)
Definition plan_params (tmax : R) : oparams R :=
  {| oimprove_ratio_threshold := ndec 2 (-1); omin_trust_box_size := ndec 1 (-4); omin_approx_improve := ndec 1 (-4);
     omin_approx_improve_frac := ndec 1 (-3); omax_iter := 40; otrust_shrink_ratio := ndec 1 (-1); otrust_expand_ratio := ndec 15 (-1);
     ocnt_tolerance := ndec 1 (-4); omax_merit_coeff_increases := nofZ 5; omax_qp_solver_failures := 3;
     omerit_coeff_increase_ratio := nofZ 10; omax_time := tmax; oinitial_merit_error_coeff := nofZ 20; oinflate_individually := true |}.
(** trajToDblVec: the data of a row-major matrix *)
Definition traj_vec (m : mat R) : list R := concat (m_rows m).
(** TrajOptResult, 378-392, without the names *)
Record answer := { an_status : ostatus; an_traj : list (list R); an_costs : list R; an_viols : list R }.
Section Optimize.
  Context {C : Type} (inf : R) (lib : library) (tmax : R) (callback : C -> C) (clock : C -> C * R).
  (** [Thrown]: initialize() with a vector of another length, optimize() with an empty one *)
  Definition optimize_problem (fuel : nat) (b : built) (c : C) : outcome (run (answer * osst R (world (C := C) lib))) :=
    if negb (length (traj_vec (b_init b)) =? length (b_vars b))%nat then Ok Thrown
    else
      obind (run_sqp inf lib (as_prob inf b) (plan_params tmax) callback clock fuel (traj_vec (b_init b)) (ndec 1 (-1)) c) (fun r =>
        match r with
        | None => Ok Thrown
        | Some (st, s) =>
            match get_traj (o_x s) (b_cells b) with
            | None => Ok Thrown
            | Some traj => Ok (Done ({| an_status := st; an_traj := traj; an_costs := o_cost_vals s; an_viols := o_cnt_viols s |}, s))
            end
        end).
End Optimize.
