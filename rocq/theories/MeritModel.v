(** * The QP of a pass of BasicTrustRegionSQP, from the convexified costs and constraints

    Sources: trajopt_sco/src/optimizers.cpp 59-80, 194-233, 380-426 and 781-799, trajopt_sco/src/modeling.cpp 86-149,
    trajopt_sco/include/trajopt_sco/solver_interface.hpp 140 (Var::value).

    What Cost::convex and Constraint::convex return is given by the operations they apply to a new ConvexObjective, and by the two
    lists of a ConvexConstraints; ModelingModel.v has the operations.  Logging is left out, and so is the multi-threaded variant,
    in which the costs are convexified in any order. *)
From Coq Require Import List ZArith Bool Arith.
From Verif Require Import Num Common ScoExprModel ModelingModel BackendModel GurobiSpec.
Import ListNotations.

Section Merit.
  Context {T : Type} {NT : Num T}.
  Local Notation mdl := (list (option T * option T)).

  (** convexifyCosts, optimizers.cpp 194-203: one ConvexObjective per cost, in this order *)
  Fixpoint build_all (m : mdl) (opss : list (list (op T))) : mdl * list (cobj T) :=
    match opss with
    | [] => (m, [])
    | ops :: opss => let (m, o) := build m ops in let (m, os) := build_all m opss in (m, o :: os)
    end.

  (** one pass of the outer loop: the convexified costs and constraints, merit_error_coeffs, and the
      bounds and (name of the) result of each of its QPs *)
  Record cpass := {
    p_costs : list (list (op T)); p_cnts : list (ccnts T); p_mu : list T; p_solves : list (list T * list T * list T) }.
  (** optimizers.cpp 781-785; [k] variables have been created before, and new ones are numbered from there on.
      The variables made, the objects of the costs and those of the constraints *)
  Definition pass_objs (k : nat) (p : cpass) : mdl * list (cobj T) * list (cobj T) :=
    let (m, os1) := build_all (repeat (None, None) k) (p_costs p) in
    let (m, os2) := cnts_to_costs m (p_cnts p) (p_mu p) in
    (skipn k m, os1, os2).

  (** addVar with an infinite bound passes INFINITY or the solver's own large number *)
  Definition of_bnd (inf : T) (b : option T * option T) : T * T :=
    (match fst b with Some l => l | None => nopp inf end, match snd b with Some u => u | None => inf end).
  (** addConstraintsToModel, modeling.cpp 86-97 *)
  Definition obj_cnts (o : cobj T) : list (bool * aff T) := map (pair false) (co_eqs o) ++ map (pair true) (co_ineqs o).
  (** cnts_ and vars_ of each object, for its destructor, modeling.cpp 99-109; the ConvexConstraints own no constraints
      of the model (addConstraintsToModel, 126-137, is not called for them) *)
  Fixpoint obj_gone (kc : nat) (os : list (cobj T)) : list (list nat * list nat) :=
    match os with
    | [] => []
    | o :: os => (seq kc (length (obj_cnts o)), co_vars o) :: obj_gone (kc + length (obj_cnts o)) os
    end.
  (** optimizers.cpp 786-799 and the end of the scope; locals are destroyed last to first, the elements of
      a vector first to last *)
  Definition pass_round (inf : T) (k kc : nat) (p : cpass) : round T :=
    let '(m, os1, os2) := pass_objs k p in
    {| r_vars := map (of_bnd inf) m; r_cnts := flat_map obj_cnts (os1 ++ os2);
       r_obj := fold_left (fun q o => quad_inc q (co_quad o)) (os1 ++ os2) (quad_const nzero);
       r_solves := p_solves p;
       r_gone := obj_gone (kc + length (flat_map obj_cnts os1)) os2 ++ obj_gone kc os1 |}.
  (** all the passes, from the numbers of variables and constraints created before *)
  Fixpoint pass_rounds (inf : T) (k kc : nat) (ps : list cpass) : list (round T) :=
    match ps with
    | [] => []
    | p :: ps => let r := pass_round inf k kc p in r :: pass_rounds inf (k + length (r_vars r)) (kc + length (r_cnts r)) ps
    end.

  (** evaluateModelCosts, optimizers.cpp 216-223: ConvexObjective::value(x) is quad_.value(x) (modeling.cpp 149), where each variable
      is read at its present index *)
  Definition model_costs (b : backend T) (os1 : list (cobj T)) (vals : list T) : list T :=
    map (fun o => quad_value (resolve_quad b (co_quad o)) vals) os1.
  (** evaluateModelCntViols, 225-233 *)
  Definition model_viols (b : backend T) (cs : list (ccnts T)) (vals : list T) : list T :=
    map (fun c => ccnts_violation {| cc_eqs := map (resolve b) (cc_eqs c); cc_ineqs := map (resolve b) (cc_ineqs c) |} vals) cs.
End Merit.
Arguments cpass : clear implicits.
