(** * Model of setting up a joint space problem and solving it

    The joint constraints of trajopt_ifopt (JointCntModel) as cost or constraint sets of a TrajOptQPProblem (QpModel); the solver
    is that of SqpRunModel.  An application builds such a problem as trajopt_ifopt/test/joint_terms_unit.cpp and
    trajopt_optimizers/trajopt_sqp/test/joint_*_optimization_unit.cpp do.

    Simplifications: those of the models put together; a getter that fails an assertion returns no entries. *)
From Coq Require Import List Arith Reals.
From Verif Require Import Num Common IfoptModel NodesModel JointCntModel ExprsModel QpModel.
Import ListNotations.
Local Open Scope R_scope.

(** the calls of the constructors: joint_velocity_constraint.cpp, joint_acceleration_constraint.cpp and joint_jerk_constraint.cpp
    36-88; joint_position_constraint.cpp 36-77 and 79-146 *)
Inductive request :=
| RDiff (k : kind) (targets : list R) (vs : list (var R)) (coeffs : list R)
| RTarget (targets : list R) (v : var R) (coeffs : list R)
| RBounds (bs : list (bnd R)) (v : var R) (coeffs : list R) (split : bool).
Inductive role := AsConstraint | AsCost (k : penalty).

Definition entries {A} (r : res (list A)) : list A := match r with Val l => l | _ => [] end.
(** getValues, getCoefficients, getBounds and getJacobian of the three difference constraints, 90-182 of their sources, and of
    joint_position_constraint.cpp 148-177; rows_ is the number of bounds *)
Definition diff_set (c : jcnt R) : term R :=
  {| tm_dyn := false; tm_count := fun _ => 0%nat;
     tm_at := fun x => {| cm_rows := length (jc_bounds c); cm_vals := entries (rbind (jcnt_at x c) jcnt_values); cm_coeffs := jc_coeffs c;
                          cm_jac := entries (rbind (jcnt_at x c) jcnt_jacobian); cm_bounds := jc_bounds c |} |}.
Definition pos_set (c : jpos R) : term R :=
  {| tm_dyn := false; tm_count := fun _ => 0%nat;
     tm_at := fun x => {| cm_rows := length (jp_index c); cm_vals := entries (rbind (jpos_at x c) jpos_values); cm_coeffs := jp_coeffs c;
                          cm_jac := entries (rbind (jpos_at x c) (fun c => Val (jpos_jacobian c))); cm_bounds := jp_bounds c |} |}.
Definition request_set (q : request) : res (term R) :=
  match q with
  | RDiff k targets vs coeffs => rbind (jcnt_new k targets vs coeffs) (fun c => Val (diff_set c))
  | RTarget targets v coeffs => rbind (jpos_target targets v coeffs) (fun c => Val (pos_set c))
  | RBounds bs v coeffs split => rbind (jpos_bounds bs v coeffs split) (fun c => Val (pos_set c))
  end.
(** addConstraintSet and addCostSet, trajopt_qp_problem.cpp 405-477 *)
Definition add_request (p : qp R) (rq : request * role) : res (qp R) :=
  rbind (request_set (fst rq)) (fun t => match snd rq with AsConstraint => Val (add_constraint p t) | AsCost k => add_cost p t k end).
Fixpoint add_requests (p : qp R) (l : list (request * role)) : res (qp R) :=
  match l with [] => Val p | rq :: l => rbind (add_request p rq) (fun p => add_requests p l) end.
(** the problem over the variables [x] with the limits [bs], set up *)
Definition joint_problem (x : list R) (bs : list (bnd R)) (l : list (request * role)) : res (qp R) :=
  rbind (add_requests (qp_new x bs) l) (fun p => Val (setup p)).
