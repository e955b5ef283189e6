(** * What a document on a joint space problem says *)
From Coq Require Import ZArith String List Bool Reals.
From Verif Require Import Num Common JsonModel JsonSpec ArrayModel TrajCostModel TrajoptModel PlanModel PlanSpec DocModel.
From Verif Require PipeModel.
Import ListNotations.
Local Open Scope R_scope.

(** init_info: how the trajectory starts, as a plan puts it *)
Inductive says_start (dof : nat) (n_steps : Z) (m : list (string * json R)) : init -> mat R -> Prop :=
| start_stationary ty dt : states m "type" is_text ty -> word ty "stationary" -> states_or m "dt" is_num 1 dt ->
    says_start dof n_steps m Stationary {| m_rows := []; m_cols := 0 |}
| start_given ty dt rows : states m "type" is_text ty -> word ty "given_traj" -> states_or m "dt" is_num 1 dt ->
    states m "data" (is_list (is_list is_num)) rows -> Z.of_nat (length rows) = n_steps -> Forall (fun r => length r = dof) rows ->
    says_start dof n_steps m GivenTraj {| m_rows := rows; m_cols := dof |}
| start_interpolated ty dt e : states m "type" is_text ty -> word ty "joint_interpolated" -> states_or m "dt" is_num 1 dt ->
    states m "endpoint" (is_list is_num) e -> length e = dof ->
    says_start dof n_steps m JointInterpolated {| m_rows := map (fun x => [x]) e; m_cols := 1 |}.

Definition joint_terms (ts : list (term R)) (l : list (order * jterm R)) : Prop := Forall2 (fun t u => t_body t = BJoint (fst u) (snd u)) ts l.

(** the document [m] is about the plan [p], with the solver numbered [k] in it and the parameters [o] for the optimizer; time is not used *)
Definition says_plan (env : string -> option arm) (df : params R) (m : list (string * json R)) (p : plan) (k : nat) (o : params R) : Prop :=
  exists b a cs ns im,
    distinct m /\ says_problem (groups env) df m b o (a_group a) cs ns im /\ env (b_manip b) = Some a /\ b_solver b = k /\
    0 < b_dt_lower b <= b_dt_upper b /\ (0 <= b_steps b)%Z /\ b_time b = false /\ Forall (fun t => (t_type t < 4)%Z) (cs ++ ns) /\
    g_dof (a_group a) = dofs p /\ length (a_now a) = dofs p /\
    pl_steps p = b_steps b /\ pl_limits p = a_limits a /\ pl_now p = a_now a /\ pl_fixed_steps p = b_fixed_timesteps b /\ pl_fixed_dofs p = b_fixed_dofs b /\
    joint_terms cs (pl_costs p) /\ joint_terms ns (pl_cnts p) /\ says_start (dofs p) (b_steps b) im (pl_init p) (pl_data p).
