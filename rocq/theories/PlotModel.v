(** * What the plot callbacks show

    Sources: trajopt/src/plot_callback.cpp 20-53 (PlotCosts), 55-68 (PlotCallback), 70-107 (PlotProb); trajopt/include/trajopt/typedefs.hpp
    92-100 and 128-136 (Plot of an error function); trajopt/src/kinematic_terms.cpp 113-132 and 265-284 (pose terms);
    trajopt/src/collision_terms.cpp 701-740, 915-983 and 1183-1244 (collision evaluators), 1329-1332 (CollisionCost);
    trajopt_ifopt/src/utils/trajopt_utils.cpp 34-56; trajopt_optimizers/trajopt_sqp/src/callbacks/{joint_state_plotter,
    cartesian_error_plotter,clear_plotter,wait_for_input,collision_plotter}.cpp.

    The visualization is the list of the calls made to it, without colours and scales.  Joints and links are numbers.  Forward
    kinematics, the Jacobian of a point of a link (given in the frame of the link, as tesseract's calcJacobian takes it) and
    the contacts found at a solution vector are parameters.  The unused collision_margins vectors are left out, and a problem is
    taken to have fewer than 2^31 variables. *)
From Coq Require Import List ZArith Bool Arith.
From Verif Require Import Num Common IfoptModel NodesModel ArrayModel TrajCostModel TwistModel.
Import ListNotations.

Section Plot.
  Context {T : Type} {NT : Num T}.
  Local Open Scope num_scope.

  (** ContactResult: link_names, nearest_points, nearest_points_local, normal *)
  Record touch := { k_link0 : nat; k_link1 : nat; k_world0 : vec3 T; k_world1 : vec3 T; k_local0 : vec3 T; k_local1 : vec3 T; k_normal : vec3 T }.
  (** AxisMarker, ArrowMarker, ContactResultsMarker *)
  Inductive marker := Axis (p : iso T) | Arrow (from to : vec3 T) | Contacts (l : list touch).
  (** Visualization: clear, plotMarker, plotTrajectory with the states (joint names and positions), waitForInput *)
  Inductive call := Clear | Mark (m : marker) | Trajectory (states : list (list nat * list T)) | Wait.

  (** the manipulator: calcFwdKin, isActiveLinkName, and the columns of calcJacobian(q, link, point).topRows(3) *)
  Variable fk : list T -> nat -> iso T.
  Variable active : nat -> bool.
  Variable jacobian : list T -> nat -> vec3 T -> list (vec3 T).

  (** Isometry3d times a point and times an Isometry3d *)
  Definition move (p : iso T) (u : vec3 T) : vec3 T := vadd (apply (linear p) u) (translation p).
  Definition iso_mul (p q : iso T) : iso T := Iso (mmul (linear p) (linear q)) (move p (translation q)).
  (** getVec, modeling_utils.cpp 15-21 *)
  Definition get_vec (x : list T) (vars : list nat) : list T := map (fun v => nth v x nzero) vars.
  Definition qadd (q d : list T) : list T := map (fun p => fst p + snd p) (combine q d).

  (** ** The terms *)
  Inductive evaluator := Single | Discrete | Cast.
  Inductive object :=
  | Plain                                                                            (** no Plotter: the joint terms and others *)
  | ErrTerm (vars : list nat)                                                        (** an error function with an empty Plot *)
  | PoseTerm (vars : list nat) (source target : nat) (source_off target_off : iso T) (** CartPoseErrCalculator and DynamicCartPoseErrCalculator *)
  | CollCost (e : evaluator) (vars0 : list nat) (found : list T -> list touch)       (** CollisionCost *)
  | CollCnt (e : evaluator) (vars0 : list nat) (found : list T -> list touch).       (** CollisionConstraint, which is no Plotter *)

  (** CartPoseErrCalculator::Plot, 265-284; DynamicCartPoseErrCalculator::Plot, 113-132, is the same *)
  Definition plot_poses (source target : iso T) : list call :=
    [Mark (Axis source); Mark (Axis target); Mark (Arrow (translation source) (translation target))].
  Definition plot_pose (q : list T) (source target : nat) (source_off target_off : iso T) : list call :=
    plot_poses (iso_mul (fk q source) source_off) (iso_mul (fk q target) target_off).
  (** one arrow: dist_grad and pose2; [sign] is -1 for the first link *)
  Definition arrow (q : list T) (link : nat) (sign : T) (n from ref : vec3 T) : call :=
    let grad := map (fun c => sign * dot n c) (jacobian q link ref) in
    Mark (Arrow from (move (fk (qadd q grad) link) ref)).
  (** the loop body, 711-732 for a single time step: the reference point is nearest_points, and there is no second arrow *)
  Definition plot_single (q : list T) (c : touch) : list call :=
    if active (k_link0 c) then [arrow q (k_link0 c) (- none_) (k_normal c) (k_world0 c) (k_world0 c)] else [].
  (** 929-974 and 1193-1234 *)
  Definition plot_pair (q : list T) (c : touch) : list call :=
    (if active (k_link0 c) then [arrow q (k_link0 c) (- none_) (k_normal c) (k_world0 c) (k_local0 c)] else []) ++
    (if active (k_link1 c) then [arrow q (k_link1 c) none_ (k_normal c) (k_world1 c) (k_local1 c)] else []).
  Definition plot_contacts (e : evaluator) (vars0 : list nat) (found : list T -> list touch) (x : list T) : list call :=
    let q := get_vec x vars0 in
    flat_map (match e with Single => plot_single q | Discrete | Cast => plot_pair q end) (found x) ++ [Mark (Contacts (found x))].
  (** dynamic_cast<Plotter*> and Plot *)
  Definition plot_object (x : list T) (o : object) : list call :=
    match o with
    | Plain | CollCnt _ _ _ | ErrTerm _ => []
    | PoseTerm vars source target so to => plot_pose (get_vec x vars) source target so to
    | CollCost e vars0 found => plot_contacts e vars0 found x
    end.

  (** ** The callbacks of trajopt *)
  (** 43-51 and 97-104; None: the array access throws *)
  Definition show (joints : list nat) (rows : option (list (list T))) : outcome (list call) :=
    match rows with Some rows => Ok [Trajectory (map (fun r => (joints, r)) rows); Wait] | None => Undef end.
  (** PlotCosts, 20-53; PlotCallback passes the joint names of the manipulator and m_traj_vars *)
  Definition plot_costs (joints : list nat) (costs cnts : list object) (vars : array nat) (x : list T) : outcome (list call) :=
    obind (show joints (get_traj x vars)) (fun tail =>
    Ok (Clear :: flat_map (plot_object x) costs ++ flat_map (plot_object x) cnts ++ tail)).
  (** the array PlotProb makes of the [n] variables of the problem, 92-95; the division is one of ints.  None: by zero *)
  Definition guess_array (joints : list nat) (n : nat) : option (array nat) :=
    let cols := Z.of_nat (length joints) in
    if (cols =? 0)%Z then None else Some (of_data (Z.quot (Z.of_nat n) cols) cols (seq 0 n)).
  (** PlotProb, 70-107 *)
  Definition plot_prob (joints : list nat) (costs cnts : list object) (n : nat) (x : list T) : outcome (list call) :=
    match guess_array joints n with
    | None => Undef
    | Some vars => plot_costs joints costs cnts vars x
    end.

  (** ** The callbacks of trajopt_sqp: the calls, and what execute() returns *)
  (** toJointTrajectory, trajopt_utils.cpp 44-56; the names of the elements of a variable are parameters *)
  Definition to_joint_trajectory (names : nat -> list nat) (vars : list (var T)) : list (list nat * list T) :=
    map (fun v => (names (v_name v), v_vals v)) vars.
  (** toTrajArray, 34-42: assigning a row of another length fails an assertion *)
  Definition to_traj_array (vars : list (var T)) : res (list (list T)) :=
    match vars with
    | [] => Val []
    | v0 :: _ => if forallb (fun v => (length (v_vals v) =? length (v_vals v0))%nat) vars then Val (map v_vals vars) else Bad
    end.
  (** JointStatePlottingCallback::execute, joint_state_plotter.cpp 44-50 and 62-66; [plotter]: the pointer is not null *)
  Definition joint_state_plotter (plotter : bool) (names : nat -> list nat) (vars : list (var T)) : list call * bool :=
    ((if plotter then [Trajectory (to_joint_trajectory names vars)] else []), true).
  (** CartesianErrorPlottingCallback::execute: getCurrentPose and getTargetPose of each constraint *)
  Definition cart_error_plotter (plotter : bool) (cnts : list (iso T * iso T)) : list call * bool :=
    (flat_map (fun c => if plotter then plot_poses (fst c) (snd c) else []) cnts, true).
  (** ClearPlotterCallback, WaitForInputCallback and CollisionPlottingCallback (which is not implemented) *)
  Definition clear_plotter : list call * bool := ([Clear], true).
  Definition wait_for_input : list call * bool := ([Wait], true).
  Definition collision_plotter : list call * bool := ([], true).
End Plot.
Arguments touch : clear implicits.
Arguments marker : clear implicits.
Arguments call : clear implicits.
Arguments object : clear implicits.
