(** * From a JSON document to a trajectory, for joint space problems

    Sources: trajopt/src/problem_description.cpp 272-308 (ProblemConstructionInfo::fromJson), 410-541 and 543-548 (ConstructProblem),
    552-553 (the solver of the problem), 394-408 (OptimizeProblem).

    JsonModel.v reads the document, PlanModel.v constructs and optimizes.  Documents with other terms than those on joint
    positions, velocities, accelerations and jerks, and terms that use time and may do so, are outside ([Other]). *)
From Coq Require Import ZArith String List Bool Arith Reals.
From Verif Require Import Num Common JsonModel ScoExprModel ModelingModel ArrayModel TrajCostModel CollisionModel BackendModel SolveModel ScoOptModel TrajoptModel RunModel PlanModel.
From Verif Require PipeModel.
Import ListNotations.
Local Open Scope R_scope.

(** a manipulator of the environment: getJointGroup, its limits (JointGroup::getLimits) and its joints in the current state
    (Environment::getCurrentJointValues) *)
Record arm := { a_group : group; a_limits : list (R * R); a_now : list R }.

(** the joint terms in pci.cost_infos or pci.cnt_infos; None if there is another one *)
Fixpoint joint_only (ts : list (term R)) : option (list (order * jterm R)) :=
  match ts with
  | [] => Some []
  | t :: ts => match t_body t, joint_only ts with BJoint o p, Some l => Some ((o, p) :: l) | _, _ => None end
  end.
(** what ConstructProblem takes from the ProblemConstructionInfo *)
Definition plan_of (a : arm) (q : problem R) (costs cnts : list (order * jterm R)) : plan :=
  {| pl_steps := b_steps (q_basic q); pl_limits := a_limits a; pl_init := i_type (q_init q); pl_data := i_data (q_init q); pl_now := a_now a;
     pl_fixed_steps := b_fixed_timesteps (q_basic q); pl_fixed_dofs := b_fixed_dofs (q_basic q); pl_costs := costs; pl_cnts := cnts |}.

(** the ModelType of a library *)
Definition kind_of (lib : library) : PipeModel.kind :=
  match lib with Osqp _ _ _ => PipeModel.OSQP | Qpoases _ => PipeModel.QPOASES | Bpmpd _ => PipeModel.BPMPD end.
(** the problem with the number of its solver (sco::ModelType) *)
Inductive told := Other | Problem (solver : nat) (b : built).
Section Document.
  Variable ntrunc : R -> Z.
  Variable text_int : Z -> string.
  Variable text_real : R -> string.
  (** the environment, TRAJOPT_CONVEX_SOLVER and which solvers were built *)
  Context (env : string -> option arm) (var : option string) (have : nat -> bool).
  Definition groups (name : string) : option group := option_map a_group (env name).
  (** ConstructProblem(root, env), 543-548 *)
  Definition construct_doc (rtl : bool) (df : params R) (v : json R) : run told :=
    rdo (read_problem ntrunc text_int text_real groups df v) (fun q =>
    match env (b_manip (q_basic q)) with
    | None => Thrown
    | Some a =>
        match joint_only (q_costs q), joint_only (q_cnts q) with
        | Some costs, Some cnts =>
            rdo (lift (check_time (map info costs) (map info cnts) (b_time (q_basic q)))) (fun _ =>
            if b_time (q_basic q) then Done Other
            else match PipeModel.create_model have var (b_solver (q_basic q)) with
                 | PipeModel.Created k => rdo (construct rtl (plan_of a q costs cnts)) (fun b => Done (Problem k b))
                 | PipeModel.CreateThrows => Thrown
                 | PipeModel.EmptyAccess => Assert
                 end)
        | _, _ => Done Other
        end
    end).
End Document.
