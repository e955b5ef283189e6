(** * ConstructProblem and OptimizeProblem of trajopt for joint space problems with time

    Sources: trajopt/src/problem_description.cpp 394-408 (OptimizeProblem), 410-541 (ConstructProblem), 1197-1372
    (JointVelTermInfo::hatch), 1851-1892 (TotalTimeTermInfo::hatch); trajopt/src/kinematic_terms.cpp 427-492 and 572-600 (their error
    functions); trajopt_sco/src/modeling_utils.cpp 137-271 (CostFromErrFunc, ConstraintFromErrFunc).

    basic_info.use_time is true: each step has a further variable, 1/dt.  The terms are the four kinds of joint terms and the total
    time; the parts are those of TrajoptModel.v, KinModel.v and ModelingModel.v, and the optimizer is that of RunModel.v.  Names, the
    plotter and logging are left out; numbers are reals. *)
From Coq Require Import List ZArith Bool Arith Reals.
From Verif Require Import Num Common ScoExprModel ModelingModel ArrayModel TrajCostModel CollisionModel BackendModel SolveModel ScoOptModel TrajoptModel KinModel RunModel PlanModel.
Import ListNotations.
Local Open Scope R_scope.

(** a joint term, or a TotalTimeTermInfo with its term_type, coeff and limit *)
Inductive tterm := TJoint (t : order * jterm R) | TTotal (ty : Z) (coeff limit : R).
(** ProblemConstructionInfo: as [plan], with basic_info.dt_lower_lim, dt_upper_lim and init_info.dt *)
Record tplan := {
  tp_steps : Z; tp_limits : list (R * R); tp_dt_lower : R; tp_dt_upper : R; tp_init : init; tp_data : mat R; tp_now : list R; tp_dt : R;
  tp_fixed_steps : list Z; tp_fixed_dofs : list Z; tp_costs : list tterm; tp_cnts : list tterm }.
(** the constructor of TotalTimeTermInfo, problem_description.hpp 631 *)
Definition tinfo_of (t : tterm) : tinfo := match t with TJoint t => info t | TTotal ty _ _ => {| ti_type := ty; ti_supported := 7 |} end.

(** ** The objects *)
(** a TrajOptCostFromErrFunc or TrajOptConstraintFromErrFunc with its error function and the Jacobian of that; [er_eq] stands for
    SQUARED and EQ, otherwise HINGE and INEQ *)
Record errobj := { er_side : side; er_eq : bool; er_vars : list nat; er_coeffs : list R;
  er_fun : list R -> outcome (list R); er_jac : list R -> outcome (list (list R)) }.
Inductive tobj := OJoint (a : added R) | OErr (e : errobj).
(** 1258-1290 and 1300-1335: JointVelErrCalculator and JointVelJacCalculator *)
Definition as_tobj (a : added R) : tobj :=
  match a with
  | AddVelTime s e _ target upper lower vars coeffs =>
      OErr {| er_side := s; er_eq := e; er_vars := vars; er_coeffs := coeffs; er_fun := joint_vel_err target upper lower; er_jac := joint_vel_jac |}
  | a => OJoint a
  end.
(** TotalTimeTermInfo::hatch, 1851-1892 *)
Definition hatch_total (ty : Z) (coeff limit : R) (vars : array nat) : run (list tobj) :=
  rdo (lift (total_time_vars vars)) (fun time_vars =>
    let add s := Done [OErr {| er_side := s; er_eq := double_equals limit nzero; er_vars := time_vars; er_coeffs := [coeff];
                               er_fun := fun x => Ok (time_cost limit x); er_jac := fun x => Ok (time_cost_jac x) |}] in
    if has ty TT_COST then add SideCost else if has ty TT_CNT then add SideCnt else Thrown).
Definition hatch_term (n_dof : nat) (vars : array nat) (t : tterm) : run (list tobj) :=
  match t with
  | TJoint t => rdo (hatch_joint (fst t) (snd t) n_dof vars) (fun l => Done (map as_tobj l))
  | TTotal ty coeff limit => hatch_total ty coeff limit vars
  end.

Definition tis_cost (o : tobj) : bool := match o with OJoint a => is_cost a | OErr e => match er_side e with SideCost => true | SideCnt => false end end.
Definition tis_cnt (equality : bool) (o : tobj) : bool :=
  match o with OJoint a => is_cnt equality a | OErr e => match er_side e with SideCost => false | SideCnt => Bool.eqb (er_eq e) equality end end.
(** value(), violation() and convex(); the joint objects have the same convex model everywhere *)
Definition tcost_value (o : tobj) (x : list R) : outcome R :=
  match o with
  | OJoint a => cost_value a x
  | OErr e => obind (er_fun e (get_vec x (er_vars e))) (fun y => Ok (err_cost_value (if er_eq e then SQUARED else HINGE) (er_coeffs e) y))
  end.
Definition tcnt_viol (o : tobj) (x : list R) : outcome R :=
  match o with
  | OJoint a => cnt_viol a x
  | OErr e => obind (er_fun e (get_vec x (er_vars e))) (fun y => Ok (cnt_violation (if er_eq e then EQ else INEQ) (err_cnt_value (er_coeffs e) y)))
  end.
Definition tcost_convex (o : tobj) (x : list R) : outcome (list (op R)) :=
  match o with
  | OJoint a => Ok (cost_convex a)
  | OErr e =>
      let x := get_vec x (er_vars e) in
      obind (er_jac e x) (fun rows => obind (er_fun e x) (fun y => Ok (err_cost_ops (if er_eq e then SQUARED else HINGE) (er_coeffs e) y x rows (er_vars e))))
  end.
Definition tcnt_convex (o : tobj) (x : list R) : outcome (ccnts R) :=
  match o with
  | OJoint a => Ok (cnt_convex a)
  | OErr e =>
      let x := get_vec x (er_vars e) in
      obind (er_jac e x) (fun rows => obind (er_fun e x) (fun y => Ok (err_cnt_convex (if er_eq e then EQ else INEQ) (er_coeffs e) y x rows (er_vars e))))
  end.

(** ** ConstructProblem, 410-541 *)
Record tbuilt := { tb_vars : opt_prob R; tb_cells : array nat; tb_init : mat R; tb_fixed : list (aff R); tb_added : list tobj }.
Definition tconstruct (rtl : bool) (p : tplan) : run tbuilt :=
  let n_dof := length (tp_limits p) in
  rdo (lift (check_time (map tinfo_of (tp_costs p)) (map tinfo_of (tp_cnts p)) true)) (fun _ =>
  rdo (traj_prob (tp_steps p) (Z.of_nat n_dof) true (tp_limits p) (tp_dt_lower p) (tp_dt_upper p)) (fun pv =>
  rdo (init_traj (tp_init p) (tp_now p) (tp_data p) (tp_steps p) true (tp_dt p)) (fun m =>
  rdo (check_init m (tp_steps p) n_dof true) (fun m =>
  rdo (fix_all rtl (snd pv) m n_dof true (tp_fixed_steps p) (tp_fixed_dofs p)) (fun fixed =>
  rdo (rmap (hatch_term n_dof (snd pv)) (tp_costs p)) (fun a =>
  rdo (rmap (hatch_term n_dof (snd pv)) (tp_cnts p)) (fun b =>
  Done {| tb_vars := fst pv; tb_cells := snd pv; tb_init := m; tb_fixed := fixed; tb_added := concat a ++ concat b |}))))))).

Definition tget_costs (b : tbuilt) : list tobj := filter tis_cost (tb_added b).
Definition tget_cnts (b : tbuilt) : list tobj := filter (tis_cnt true) (tb_added b) ++ filter (tis_cnt false) (tb_added b).
(** the problem as the optimizer sees it; a failed assertion counts as 0 or nothing here (C139_built: there is none) *)
Definition tas_prob (inf : R) (b : tbuilt) : prob :=
  let bnds := map (bounds_of inf) (tb_vars b) in
  {| f_vars := bnds; f_lin := map (pair false) (tb_fixed b); f_lb := map fst bnds; f_ub := map snd bnds;
     f_costs := fun x => map (fun a => value_or 0 (tcost_value a x)) (tget_costs b);
     f_ncnt := length (tget_cnts b);
     f_viols := fun x => map (fun a => value_or 0 (tcnt_viol a x)) (tget_cnts b);
     f_ccosts := fun x => map (fun a => value_or [] (tcost_convex a x)) (tget_costs b);
     f_ccnts := fun x => map (fun a => value_or {| cc_eqs := []; cc_ineqs := [] |} (tcnt_convex a x)) (tget_cnts b) |}.

(** ** OptimizeProblem, 394-408 *)
Section Optimize.
  Context {C : Type} (inf : R) (lib : library) (tmax : R) (callback : C -> C) (clock : C -> C * R).
  Definition optimize_timed (fuel : nat) (b : tbuilt) (c : C) : outcome (run (answer * osst R (world (C := C) lib))) :=
    if negb (length (traj_vec (tb_init b)) =? length (tb_vars b))%nat then Ok Thrown
    else
      obind (run_sqp inf lib (tas_prob inf b) (plan_params tmax) callback clock fuel (traj_vec (tb_init b)) (ndec 1 (-1)) c) (fun r =>
        match r with
        | None => Ok Thrown
        | Some (st, s) =>
            match get_traj (o_x s) (tb_cells b) with
            | None => Ok Thrown
            | Some traj => Ok (Done ({| an_status := st; an_traj := traj; an_costs := o_cost_vals s; an_viols := o_cnt_viols s |}, s))
            end
        end).
End Optimize.
