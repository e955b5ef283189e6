(** * From a JSON document to a trajectory, for joint space problems with time

    Sources: trajopt/src/problem_description.cpp 272-308 (ProblemConstructionInfo::fromJson), 410-541 and 543-548 (ConstructProblem),
    552-553 (the solver of the problem).

    As DocModel.v, for documents in which time is used: the terms are those on joints and on the total time.  JsonModel.v reads the
    document, TimedModel.v constructs.  Documents with other terms, or that do not use time, are outside ([TOther]). *)
From Coq Require Import ZArith String List Bool Arith Reals.
From Verif Require Import Num Common JsonModel ScoExprModel ModelingModel ArrayModel TrajCostModel CollisionModel BackendModel SolveModel ScoOptModel TrajoptModel RunModel PlanModel DocModel TimedModel.
From Verif Require PipeModel.
Import ListNotations.
Local Open Scope R_scope.

(** the terms in pci.cost_infos or pci.cnt_infos; None if one is neither on joints nor on the total time *)
Definition tterm_of (t : term R) : option tterm :=
  match t_body t with
  | BJoint o p => Some (TJoint (o, p))
  | BTime coeff limit => Some (TTotal (t_type t) coeff limit)
  | _ => None
  end.
Fixpoint tterms_of (ts : list (term R)) : option (list tterm) :=
  match ts with
  | [] => Some []
  | t :: ts => match tterm_of t, tterms_of ts with Some u, Some l => Some (u :: l) | _, _ => None end
  end.
(** what ConstructProblem takes from the ProblemConstructionInfo *)
Definition tplan_of (a : arm) (q : problem R) (costs cnts : list tterm) : tplan :=
  {| tp_steps := b_steps (q_basic q); tp_limits := a_limits a; tp_dt_lower := b_dt_lower (q_basic q); tp_dt_upper := b_dt_upper (q_basic q);
     tp_init := i_type (q_init q); tp_data := i_data (q_init q); tp_now := a_now a; tp_dt := i_dt (q_init q);
     tp_fixed_steps := b_fixed_timesteps (q_basic q); tp_fixed_dofs := b_fixed_dofs (q_basic q); tp_costs := costs; tp_cnts := cnts |}.

(** the problem with the number of its solver (sco::ModelType) *)
Inductive ttold := TOther | TProblem (solver : nat) (b : tbuilt).
Section Document.
  Variable ntrunc : R -> Z.
  Variable text_int : Z -> string.
  Variable text_real : R -> string.
  (** the environment, TRAJOPT_CONVEX_SOLVER and which solvers were built *)
  Context (env : string -> option arm) (var : option string) (have : nat -> bool).
  (** ConstructProblem(root, env), 543-548 *)
  Definition construct_tdoc (rtl : bool) (df : params R) (v : json R) : run ttold :=
    rdo (read_problem ntrunc text_int text_real (groups env) df v) (fun q =>
    match env (b_manip (q_basic q)) with
    | None => Thrown
    | Some a =>
        match tterms_of (q_costs q), tterms_of (q_cnts q) with
        | Some costs, Some cnts =>
            rdo (lift (check_time (map tinfo_of costs) (map tinfo_of cnts) (b_time (q_basic q)))) (fun _ =>
            if b_time (q_basic q) then
              match PipeModel.create_model have var (b_solver (q_basic q)) with
              | PipeModel.Created k => rdo (tconstruct rtl (tplan_of a q costs cnts)) (fun b => Done (TProblem k b))
              | PipeModel.CreateThrows => Thrown
              | PipeModel.EmptyAccess => Assert
              end
            else Done TOther)
        | _, _ => Done TOther
        end
    end).
End Document.
