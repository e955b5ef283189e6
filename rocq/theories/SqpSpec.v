(** * Specification vocabulary for the SQP solver properties

    Independent of the model's helper functions: only the observable trace of events. *)
From Coq Require Import List ZArith Reals.
From Verif Require Import Num SqpModel.
Import ListNotations.

(** [merit_run m0 tr m]: reading the trace (newest first) from the start, the best exact merit
    starts at [m0], every accepted step replaces the current value by one that is not larger,
    only a penalty adjustment may change it otherwise, and it ends at [m]. *)
Inductive merit_run (m0 : R) : list (event R) -> R -> Prop :=
| mr_nil : merit_run m0 [] m0
| mr_accept tr old new : merit_run m0 tr old -> (new <= old)%R -> merit_run m0 (EvAccept old new :: tr) new
| mr_penalty tr v b a old new : merit_run m0 tr old -> merit_run m0 (EvPenalty v b a :: tr) new
| mr_convexify tr m : merit_run m0 tr m -> merit_run m0 (EvConvexify :: tr) m
| mr_qp tr m ok : merit_run m0 tr m -> merit_run m0 (EvQP ok :: tr) m
| mr_cb tr m ok : merit_run m0 tr m -> merit_run m0 (EvCallback ok :: tr) m
| mr_reject tr m : merit_run m0 tr m -> merit_run m0 (EvReject :: tr) m.

(** Number of QP solves / penalty adjustments in a trace. *)
Fixpoint qp_solves {T} (tr : list (event T)) : nat :=
  match tr with [] => 0 | EvQP _ :: r => S (qp_solves r) | _ :: r => qp_solves r end.
Fixpoint penalty_changes {T} (tr : list (event T)) : nat :=
  match tr with [] => 0 | EvPenalty _ _ _ :: r => S (penalty_changes r) | _ :: r => penalty_changes r end.

(** What one penalty adjustment does to coefficient [i]. *)
Definition coeff_rule (individually : bool) (tol ratio v before after : R) : Prop :=
  if individually
  then ((tol < v)%R -> after = (before * ratio)%R) /\ ((v <= tol)%R -> after = before)
  else after = (before * ratio)%R.
