(** * Model of the sco problem-modelling layer

    Sources: trajopt_sco/src/modeling.cpp, trajopt_sco/src/modeling_utils.cpp,
    trajopt_sco/src/num_diff.cpp, trajopt_sco/src/optimizers.cpp (cntsToCosts,
    setTrustBoxConstraints).

    Simplifications: the solver [Model] is reduced to its list of variable bounds (a variable is
    its position, the index given by addVar); [None] is an infinite bound.  Names are dropped.
    User functions (error functions, Jacobians, scalar functions) are arbitrary Gallina functions.
    Asserted size conditions are explicit hypotheses of the theorems or [Undef] where noted. *)
From Coq Require Import List ZArith Bool Arith.
From Verif Require Import Num Common ScoExprModel.
Import ListNotations.
Local Open Scope num_scope.

Section Modeling.
  Context {T : Type} {NT : Num T}.

  Local Notation bnd := (option T * option T)%type.   (* lower, upper; None = infinite *)
  Local Notation mdl := (list bnd).

  (** Model::addVar(name, lower, upper): the new variable has index vars.size()
      (osqp_interface.cpp 123-130, bpmpd_interface.cpp 238-245) *)
  Definition add_var (m : mdl) (b : bnd) : mdl * nat := (m ++ [b], length m).

  (** ConvexObjective, modeling.hpp 25-64 *)
  Record cobj := { co_quad : quad T; co_vars : list nat; co_eqs : list (aff T); co_ineqs : list (aff T) }.
  Definition cobj_empty : cobj := {| co_quad := quad_const nzero; co_vars := []; co_eqs := []; co_ineqs := [] |}.
  Definition cstate := (mdl * cobj)%type.

  (** modeling.cpp 16-17 *)
  Definition add_aff (s : cstate) (a : aff T) : cstate :=
    (fst s, {| co_quad := quad_inc_aff (co_quad (snd s)) a; co_vars := co_vars (snd s);
               co_eqs := co_eqs (snd s); co_ineqs := co_ineqs (snd s) |}).
  Definition add_quad (s : cstate) (q : quad T) : cstate :=
    (fst s, {| co_quad := quad_inc (co_quad (snd s)) q; co_vars := co_vars (snd s);
               co_eqs := co_eqs (snd s); co_ineqs := co_ineqs (snd s) |}).

  (** addHinge, modeling.cpp 18-26 *)
  Definition add_hinge (s : cstate) (a : aff T) (coeff : T) : cstate :=
    let (m, hinge) := add_var (fst s) (Some nzero, None) in
    let o := snd s in
    (m, {| co_quad := quad_inc_aff (co_quad o) (aff_scale (aff_var hinge) coeff);
           co_vars := co_vars o ++ [hinge]; co_eqs := co_eqs o;
           co_ineqs := co_ineqs o ++ [aff_dec_var a hinge] |}).

  (** addAbs, modeling.cpp 28-52 *)
  Definition add_abs (s : cstate) (a : aff T) (coeff : T) : cstate :=
    let (m, neg) := add_var (fst s) (Some nzero, None) in
    let (m, pos) := add_var m (Some nzero, None) in
    let o := snd s in
    (m, {| co_quad := quad_inc_aff (co_quad o) {| a_const := nzero; a_coeffs := [coeff; coeff]; a_vars := [neg; pos] |};
           co_vars := co_vars o ++ [neg; pos];
           co_eqs := co_eqs o ++ [{| a_const := a_const a; a_coeffs := a_coeffs a ++ [none_; nopp none_];
                                     a_vars := a_vars a ++ [neg; pos] |}];
           co_ineqs := co_ineqs o |}).

  (** addHinges, addL1Norm, addL2Norm, modeling.cpp 54-74 *)
  Definition add_hinges (s : cstate) (es : list (aff T)) : cstate := fold_left (fun s a => add_hinge s a none_) es s.
  Definition add_l1 (s : cstate) (es : list (aff T)) : cstate := fold_left (fun s a => add_abs s a none_) es s.
  Definition add_l2 (s : cstate) (es : list (aff T)) : cstate := fold_left (fun s a => add_quad s (aff_square a)) es s.

  (** addMax, modeling.cpp 76-85: the new variable is neither recorded in vars_ nor added to the
      objective *)
  Definition add_max (s : cstate) (es : list (aff T)) : cstate :=
    let (m, mx) := add_var (fst s) (None, None) in
    let o := snd s in
    (m, {| co_quad := co_quad o; co_vars := co_vars o; co_eqs := co_eqs o;
           co_ineqs := co_ineqs o ++ map (fun a => aff_dec_var a mx) es |}).

  (** removeFromModel, modeling.cpp 100-105, followed by Model::update (see BackendModel.v): the
      variables recorded in vars_ disappear *)
  Definition remove_vars (m : mdl) (vs : list nat) : mdl :=
    map snd (filter (fun ib => negb (existsb (Nat.eqb (fst ib)) vs)) (combine (seq 0 (length m)) m)).
  Definition remove_from_model (s : cstate) : mdl := remove_vars (fst s) (co_vars (snd s)).

  (** the public operations of a ConvexObjective *)
  Inductive op :=
  | OpAff (a : aff T) | OpQuad (q : quad T) | OpHinge (a : aff T) (c : T) | OpAbs (a : aff T) (c : T)
  | OpHinges (es : list (aff T)) | OpL1 (es : list (aff T)) | OpL2 (es : list (aff T)) | OpMax (es : list (aff T)).
  Definition apply_op (s : cstate) (o : op) : cstate :=
    match o with
    | OpAff a => add_aff s a | OpQuad q => add_quad s q | OpHinge a c => add_hinge s a c
    | OpAbs a c => add_abs s a c | OpHinges es => add_hinges s es | OpL1 es => add_l1 s es
    | OpL2 es => add_l2 s es | OpMax es => add_max s es
    end.
  Definition build (m : mdl) (ops : list op) : cstate := fold_left apply_op ops (m, cobj_empty).

  (** ConvexConstraints, modeling.hpp 70-118 and modeling.cpp 112-150 *)
  Record ccnts := { cc_eqs : list (aff T); cc_ineqs : list (aff T) }.
  Definition ccnts_violations (c : ccnts) (x : list T) : list T :=
    map (fun a => nabs (aff_value a x)) (cc_eqs c) ++ map (fun a => pospart (aff_value a x)) (cc_ineqs c).
  Definition ccnts_violation (c : ccnts) (x : list T) : T := vsum (ccnts_violations c x).

  (** Constraint::violations, violation, modeling.cpp 152-172 *)
  Inductive ctype := EQ | INEQ.
  Definition cnt_violations (ty : ctype) (vals : list T) : list T :=
    match ty with EQ => map nabs vals | INEQ => map pospart vals end.
  Definition cnt_violation (ty : ctype) (vals : list T) : T := vsum (cnt_violations ty vals).

  (** cntsToCosts, optimizers.cpp 59-80: one objective per constraint, all in the same model *)
  Definition cnt_to_ops (c : ccnts) (coeff : T) : list op :=
    map (fun a => OpAbs a coeff) (cc_eqs c) ++ map (fun a => OpHinge a coeff) (cc_ineqs c).
  Fixpoint cnts_to_costs (m : mdl) (cs : list ccnts) (coeffs : list T) : mdl * list cobj :=
    match cs, coeffs with
    | c :: cs, k :: ks =>
        let (m, o) := build m (cnt_to_ops c k) in
        let (m, os) := cnts_to_costs m cs ks in (m, o :: os)
    | _, _ => (m, [])
    end.

  (** ** Feasible points *)
  (** getClosestFeasiblePoint, modeling.cpp 260-271; the second assignment overwrites the first *)
  Definition closest_feasible1 (lo hi x delta : T) : T :=
    let y := nfmax (lo + delta) x in
    let y := nfmin (hi - delta) x in y.
  Definition closest_feasible (lb ub x : list T) (delta : T) : list T :=
    map (fun t => closest_feasible1 (fst (fst t)) (snd (fst t)) (snd t) delta) (combine (combine lb ub) x).
  (** getCentralFeasiblePoint, modeling.cpp 251-258 *)
  Definition central_feasible (lb ub : list T) (delta : T) : list T :=
    closest_feasible lb ub (map (fun b => (fst b + snd b) / nofZ 2) (combine lb ub)) delta.

  (** setTrustBoxConstraints, optimizers.cpp 151-172 *)
  Definition trust_box1 (lo hi x box : T) : T * T :=
    let xi := nclamp x lo hi in (nmax (xi - box) lo, nmin (xi + box) hi).
  Definition trust_boxes (lb ub x : list T) (box : T) : list (T * T) :=
    map (fun t => trust_box1 (fst (fst t)) (snd (fst t)) (snd t) box) (combine (combine lb ub) x).
  (** TrajOptQPProblem::updateNLPVariableBounds, trajopt_qp_problem.cpp 1094-1117: one box size per
      variable *)
  Definition trust_boxes_sqp (lb ub x box : list T) : list (T * T) :=
    map (fun t => trust_box1 (fst (fst (fst t))) (snd (fst (fst t))) (snd (fst t)) (snd t))
      (combine (combine (combine lb ub) x) box).
  (** IfoptQPProblem::updateNLPVariableBounds, ifopt_qp_problem.cpp 455-479: cwiseMin/cwiseMax *)
  Definition trust_box1_ifopt (lo hi x box : T) : T * T :=
    let xi := nmax (nmin x hi) lo in (nmax (xi - box) lo, nmin (xi + box) hi).
  Definition trust_boxes_ifopt (lb ub x box : list T) : list (T * T) :=
    map (fun t => trust_box1_ifopt (fst (fst (fst t))) (snd (fst (fst t))) (snd (fst t)) (snd t))
      (combine (combine (combine lb ub) x) box).

  (** ** Error-function costs and constraints, modeling_utils.cpp *)
  (** getVec, 16-22 *)
  Definition get_vec (x : list T) (vs : list nat) : list T := map (fun v => nth v x nzero) vs.
  (** affFromValGrad, 32-40 *)
  Definition aff_from_val_grad (y : T) (x g : list T) (vs : list nat) : aff T :=
    aff_cleanup {| a_const := y - vdot g x; a_coeffs := g; a_vars := vs |}.

  Inductive penalty := SQUARED | ABS | HINGE.
  Definition pen_value (p : penalty) (e : T) : T :=
    match p with SQUARED => e * e | ABS => nabs e | HINGE => nmax e nzero end.
  (** CostFromErrFunc::value, 137-163; [err] is the value of the error function *)
  Definition err_cost_value (p : penalty) (coeffs err : list T) : T :=
    let pens := map (pen_value p) err in
    vsum (match coeffs with [] => pens | _ => map (fun pc => fst pc * snd pc) (combine pens coeffs) end).
  (** CostFromErrFunc::convex, 164-208; [rows] are the Jacobian rows *)
  Definition err_cost_row (p : penalty) (w : T) (a : aff T) : op :=
    match p with
    | SQUARED => OpQuad (quad_scale (aff_square a) w)
    | ABS => OpAbs (aff_scale a w) none_
    | HINGE => OpHinge (aff_scale a w) none_
    end.
  Definition err_weights (coeffs : list T) (k : nat) : list (option T) :=
    match coeffs with
    | [] => repeat (Some none_) k
    | _ => map (fun c => if c =? nzero then None else Some c) coeffs
    end.
  Definition err_cost_ops (p : penalty) (coeffs y x : list T) (rows : list (list T)) (vs : list nat) : list op :=
    flat_map (fun t => match snd t with
                       | None => []
                       | Some w => [err_cost_row p w (aff_from_val_grad (fst (fst t)) x (snd (fst t)) vs)]
                       end)
      (combine (combine y rows) (err_weights coeffs (length rows))).

  (** ConstraintFromErrFunc::value and convex, 235-271 *)
  Definition err_cnt_value (coeffs err : list T) : list T :=
    match coeffs with [] => err | _ => map (fun pc => fst pc * snd pc) (combine err coeffs) end.
  Definition err_cnt_affs (coeffs y x : list T) (rows : list (list T)) (vs : list nat) : list (aff T) :=
    flat_map (fun t => match snd t with
                       | None => []
                       | Some w => let a := aff_from_val_grad (fst (fst t)) x (snd (fst t)) vs in
                                   [match coeffs with [] => a | _ => aff_scale a w end]
                       end)
      (combine (combine y rows) (err_weights coeffs (length rows))).
  Definition err_cnt_convex (ty : ctype) (coeffs y x : list T) (rows : list (list T)) (vs : list nat) : ccnts :=
    let a := err_cnt_affs coeffs y x rows vs in
    match ty with EQ => {| cc_eqs := a; cc_ineqs := [] |} | INEQ => {| cc_eqs := []; cc_ineqs := a |} end.

  (** ** Numerical differentiation, num_diff.cpp *)
  Fixpoint upd (x : list T) (i : nat) (v : T) : list T :=
    match x, i with
    | [], _ => []
    | _ :: r, O => v :: r
    | a :: r, S i => a :: upd r i v
    end.
  Definition indices (x : list T) : list nat := seq 0 (length x).
  (** calcForwardNumGrad, 40-53 *)
  Definition forward_grad (f : list T -> T) (x : list T) (eps : T) : list T :=
    map (fun i => (f (upd x i (nth i x nzero + eps)) - f x) / eps) (indices x).
  (** calcForwardNumJac, 54-67, as the list of its columns *)
  Definition forward_jac_cols (f : list T -> list T) (x : list T) (eps : T) : list (list T) :=
    map (fun i => map (fun p => (fst p - snd p) / eps) (combine (f (upd x i (nth i x nzero + eps))) (f x))) (indices x).
  (** calcGradAndDiagHess, 69-90 *)
  Definition grad_diag_hess (f : list T -> T) (x : list T) (eps : T) : T * list T * list T :=
    let y := f x in
    let yp i := f (upd x i (nth i x nzero + eps / nofZ 2)) in
    let ym i := f (upd x i (nth i x nzero - eps / nofZ 2)) in
    (y, map (fun i => (yp i - ym i) / eps) (indices x),
     map (fun i => (yp i + ym i - nofZ 2 * y) / (eps * eps / nofZ 4)) (indices x)).

  (** CostFromFunc::convex, modeling_utils.cpp 54-119, diagonal branch 59-73 (given value, gradient
      and Hessian diagonal) *)
  Definition func_cost_diag (val : T) (grad hess x : list T) (vs : list nat) : quad T :=
    let h := map (fun a => nmax a nzero) hess in
    let hx := map (fun p => fst p * snd p) (combine h x) in
    {| q_aff := {| a_const := val - vdot grad x + ndec 5 (-1) * vdot x hx;
                   a_coeffs := map (fun p => fst p - snd p) (combine grad hx); a_vars := vs |};
       q_coeffs := map (fun a => a * ndec 5 (-1)) h; q_vars1 := vs; q_vars2 := vs |}.
End Modeling.
Arguments cobj : clear implicits.
Arguments ccnts : clear implicits.
Arguments cstate : clear implicits.
Arguments op : clear implicits.
