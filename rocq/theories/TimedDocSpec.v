(** * What a document on a joint space problem with time says *)
From Coq Require Import ZArith String List Bool Reals.
From Verif Require Import Num Common JsonModel JsonSpec ArrayModel TrajCostModel TrajoptModel PlanModel PlanSpec DocModel DocSpec TimedModel.
From Verif Require PipeModel.
Import ListNotations.
Local Open Scope R_scope.

(** [u] is what the term [t] asks for *)
Definition same_term (t : term R) (u : tterm) : Prop :=
  match u with
  | TJoint (o, p) => t_body t = BJoint o p
  | TTotal ty c l => t_body t = BTime c l /\ t_type t = ty
  end.
Definition timed_terms (ts : list (term R)) (l : list tterm) : Prop := Forall2 same_term ts l.

(** the document [m] is about the timed plan [p], with the solver numbered [k] in it and the parameters [o] for the optimizer; some term
    uses time, and none does that cannot *)
Definition says_tplan (env : string -> option arm) (df : params R) (m : list (string * json R)) (p : tplan) (k : nat) (o : params R) : Prop :=
  let dof := length (tp_limits p) in
  exists b a cs ns im,
    distinct m /\ says_problem (groups env) df m b o (a_group a) cs ns im /\ env (b_manip b) = Some a /\ b_solver b = k /\
    0 < tp_dt_lower p <= tp_dt_upper p /\ (0 <= b_steps b)%Z /\
    (exists t, In t (cs ++ ns) /\ (4 <= t_type t)%Z) /\
    (forall t o q, In t (cs ++ ns) -> (4 <= t_type t)%Z -> t_body t = BJoint o q -> o = Pos \/ o = Vel) /\
    g_dof (a_group a) = dof /\ length (a_now a) = dof /\
    tp_steps p = b_steps b /\ tp_limits p = a_limits a /\ tp_now p = a_now a /\ tp_fixed_steps p = b_fixed_timesteps b /\ tp_fixed_dofs p = b_fixed_dofs b /\
    tp_dt_lower p = b_dt_lower b /\ tp_dt_upper p = b_dt_upper b /\
    timed_terms cs (tp_costs p) /\ timed_terms ns (tp_cnts p) /\
    says_start dof (b_steps b) im (tp_init p) (tp_data p) /\ states_or im "dt" is_num 1 (tp_dt p).
