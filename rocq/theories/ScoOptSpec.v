(** Specification vocabulary for the sco optimizer properties (traces only). *)
From Coq Require Import List ZArith Reals.
From Verif Require Import Num ScoOptModel.
Import ListNotations.

(** The exact merit starts at [m0] when the start point is evaluated; an accepted step replaces
    the current value by one that is not larger; only a penalty adjustment changes it otherwise. *)
Inductive omerit_run (m0 : R) : list (oevent R) -> R -> Prop :=
| omr_eval : omerit_run m0 [OEval] m0
| omr_accept tr old new : omerit_run m0 tr old -> (new <= old)%R -> omerit_run m0 (OAccept old new :: tr) new
| omr_penalty tr v b a old new : omerit_run m0 tr old -> omerit_run m0 (OPenalty v b a :: tr) new
| omr_convexify tr m : omerit_run m0 tr m -> omerit_run m0 (OConvexify :: tr) m
| omr_qp tr m ok : omerit_run m0 tr m -> omerit_run m0 (OQP ok :: tr) m
| omr_reject tr m : omerit_run m0 tr m -> omerit_run m0 (OReject :: tr) m.

Fixpoint oconvexifications {T} (tr : list (oevent T)) : nat :=
  match tr with [] => 0 | OConvexify :: r => S (oconvexifications r) | _ :: r => oconvexifications r end.
Fixpoint openalties {T} (tr : list (oevent T)) : nat :=
  match tr with [] => 0 | OPenalty _ _ _ :: r => S (openalties r) | _ :: r => openalties r end.
Fixpoint oqps {T} (tr : list (oevent T)) : nat :=
  match tr with [] => 0 | OQP _ :: r => S (oqps r) | _ :: r => oqps r end.
Fixpoint ofailures {T} (tr : list (oevent T)) : nat :=
  match tr with [] => 0 | OQP false :: r => S (ofailures r) | _ :: r => ofailures r end.
