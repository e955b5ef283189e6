(** * Model of the sco expressions and their algebra

    Sources: trajopt_sco/include/trajopt_sco/{solver_interface.hpp,expr_ops.hpp,expr_op_overloads.hpp,
    sco_common.hpp}, trajopt_sco/src/{solver_interface.cpp,expr_ops.cpp,expr_vec_ops.cpp}.

    Simplifications: a [Var] is its var_rep->index (shared VarReps and renumbering are modelled in
    BackendModel.v).  [Var::value] asserts that the index is in range; here an out-of-range read
    gives 0, so the theorems cover the in-range case.  The parallel vectors coeffs/vars are kept as
    separate lists as in the code; [wf_aff]/[wf_quad] say that their lengths agree.  Move overloads
    behave like the copying ones.  Aliased calls (exprInc(a, a)) are not modelled. *)
From Coq Require Import List ZArith Bool.
From Verif Require Import Num Common.
Import ListNotations.
Local Open Scope num_scope.

Notation var := nat (only parsing).

Section Expr.
  Context {T : Type} {NT : Num T}.

  (** solver_interface.hpp 173-195 *)
  Record aff := { a_const : T; a_coeffs : list T; a_vars : list var }.
  (** solver_interface.hpp 197-212 *)
  Record quad := { q_aff : aff; q_coeffs : list T; q_vars1 : list var; q_vars2 : list var }.

  Definition wf_aff (e : aff) : Prop := length (a_coeffs e) = length (a_vars e).
  Definition wf_quad (q : quad) : Prop :=
    wf_aff (q_aff q) /\ length (q_vars1 q) = length (q_coeffs q) /\ length (q_vars2 q) = length (q_coeffs q).

  (** Var::value, solver_interface.hpp 134-139 *)
  Definition var_value (v : var) (x : list T) : T := nth v x nzero.

  (** constructors, solver_interface.cpp 63-65 and 85-88 *)
  Definition aff_const (a : T) : aff := {| a_const := a; a_coeffs := []; a_vars := [] |}.
  Definition aff_var (v : var) : aff := {| a_const := nzero; a_coeffs := [none_]; a_vars := [v] |}.
  Definition quad_of_aff (a : aff) : quad := {| q_aff := a; q_coeffs := []; q_vars1 := []; q_vars2 := [] |}.
  Definition quad_const (a : T) : quad := quad_of_aff (aff_const a).
  Definition quad_var (v : var) : quad := quad_of_aff (aff_var v).

  (** AffExpr::value, solver_interface.cpp 67-84 *)
  Definition aff_value (e : aff) (x : list T) : T :=
    fold_left (fun out cv => out + fst cv * var_value (snd cv) x) (combine (a_coeffs e) (a_vars e)) (a_const e).
  (** QuadExpr::value, solver_interface.cpp 90-107 *)
  Definition quad_value (q : quad) (x : list T) : T :=
    fold_left (fun out cv => out + fst cv * var_value (fst (snd cv)) x * var_value (snd (snd cv)) x)
      (combine (q_coeffs q) (combine (q_vars1 q) (q_vars2 q))) (aff_value (q_aff q) x).

  (** exprScale, expr_ops.hpp 9-20 *)
  Definition aff_scale (e : aff) (a : T) : aff :=
    {| a_const := a_const e * a; a_coeffs := map (fun c => c * a) (a_coeffs e); a_vars := a_vars e |}.
  Definition quad_scale (q : quad) (a : T) : quad :=
    {| q_aff := aff_scale (q_aff q) a; q_coeffs := map (fun c => c * a) (q_coeffs q);
       q_vars1 := q_vars1 q; q_vars2 := q_vars2 q |}.

  (** exprInc, expr_ops.hpp 23-58 *)
  Definition aff_inc_const (a : aff) (b : T) : aff :=
    {| a_const := a_const a + b; a_coeffs := a_coeffs a; a_vars := a_vars a |}.
  Definition aff_inc (a b : aff) : aff :=
    {| a_const := a_const a + a_const b; a_coeffs := a_coeffs a ++ a_coeffs b; a_vars := a_vars a ++ a_vars b |}.
  Definition aff_inc_var (a : aff) (v : var) : aff := aff_inc a (aff_var v).
  Definition with_aff (q : quad) (a : aff) : quad :=
    {| q_aff := a; q_coeffs := q_coeffs q; q_vars1 := q_vars1 q; q_vars2 := q_vars2 q |}.
  Definition quad_inc_const (q : quad) (b : T) : quad := with_aff q (aff_inc_const (q_aff q) b).
  Definition quad_inc_var (q : quad) (v : var) : quad := with_aff q (aff_inc (q_aff q) (aff_var v)).
  Definition quad_inc_aff (q : quad) (b : aff) : quad := with_aff q (aff_inc (q_aff q) b).
  Definition quad_inc (a b : quad) : quad :=
    {| q_aff := aff_inc (q_aff a) (q_aff b); q_coeffs := q_coeffs a ++ q_coeffs b;
       q_vars1 := q_vars1 a ++ q_vars1 b; q_vars2 := q_vars2 a ++ q_vars2 b |}.

  (** exprDec, expr_ops.hpp 61-75 *)
  Definition aff_dec_const (a : aff) (b : T) : aff :=
    {| a_const := a_const a - b; a_coeffs := a_coeffs a; a_vars := a_vars a |}.
  Definition aff_dec (a b : aff) : aff := aff_inc a (aff_scale b (nopp none_)).
  Definition aff_dec_var (a : aff) (v : var) : aff := aff_dec a (aff_var v).
  Definition quad_dec_const (q : quad) (b : T) : quad := with_aff q (aff_dec_const (q_aff q) b).
  Definition quad_dec_var (q : quad) (v : var) : quad := with_aff q (aff_dec_var (q_aff q) v).
  Definition quad_dec_aff (q : quad) (b : aff) : quad := with_aff q (aff_dec (q_aff q) b).
  Definition quad_dec (a b : quad) : quad := quad_inc a (quad_scale b (nopp none_)).

  (** exprMult(x, double), expr_ops.hpp 79-95.  exprAdd/exprSub (97-168) copy and call
      exprInc/exprDec, and the operators of expr_op_overloads.hpp call these. *)
  Definition var_mult (v : var) (b : T) : aff := aff_scale (aff_var v) b.

  (** exprMult(AffExpr, AffExpr), expr_ops.cpp 10-45 *)
  Definition aff_mult (a b : aff) : quad :=
    {| q_aff := {| a_const := a_const a * a_const b;
                   a_coeffs := map (fun c => a_const b * c) (a_coeffs a) ++
                               map (fun c => a_const a * c) (a_coeffs b);
                   a_vars := a_vars a ++ a_vars b |};
       q_coeffs := flat_map (fun c1 => map (fun c2 => c1 * c2) (a_coeffs b)) (a_coeffs a);
       q_vars1 := flat_map (fun v1 => map (fun _ => v1) (a_vars b)) (a_vars a);
       q_vars2 := flat_map (fun _ => a_vars b) (a_vars a) |}.

  (** exprSquare(Var), expr_ops.cpp 47-54 *)
  Definition var_square (v : var) : quad :=
    {| q_aff := aff_const nzero; q_coeffs := [none_]; q_vars1 := [v]; q_vars2 := [v] |}.

  (** exprSquare(AffExpr), expr_ops.cpp 56-85; the double loop i, j > i *)
  Fixpoint square_coeffs (cs : list T) : list T :=
    match cs with
    | [] => []
    | c :: r => (c * c) :: map (fun c' => nofZ 2 * c * c') r ++ square_coeffs r
    end.
  Fixpoint square_vars1 (vs : list var) : list var :=
    match vs with [] => [] | v :: r => v :: map (fun _ => v) r ++ square_vars1 r end.
  Fixpoint square_vars2 (vs : list var) : list var :=
    match vs with [] => [] | v :: r => v :: r ++ square_vars2 r end.
  Definition aff_square (e : aff) : quad :=
    {| q_aff := {| a_const := a_const e * a_const e;
                   a_coeffs := map (fun c => nofZ 2 * a_const e * c) (a_coeffs e); a_vars := a_vars e |};
       q_coeffs := square_coeffs (a_coeffs e);
       q_vars1 := square_vars1 (a_vars e); q_vars2 := square_vars2 (a_vars e) |}.

  (** cleanupAff, expr_ops.cpp 87-100 *)
  Definition keep_term (cv : T * var) : bool := nabs (fst cv) >? ndec 1 (-7).
  Definition aff_cleanup (e : aff) : aff :=
    let kept := filter keep_term (combine (a_coeffs e) (a_vars e)) in
    {| a_const := a_const e; a_coeffs := map fst kept; a_vars := map snd kept |}.

  (** varDot, expr_vec_ops.cpp 4-11 *)
  Definition var_dot (x : list T) (vs : list var) : aff := {| a_const := nzero; a_coeffs := x; a_vars := vs |}.

  (** sco_common.hpp: pospart (line 44), vecSum, vecAbsSum, vecHingeSum *)
  Definition pospart (x : T) : T := if x >? nzero then x else nzero.
  Definition vecAbsSum (v : list T) : T := fold_left (fun out i => out + nabs i) v nzero.
  Definition vecHingeSum (v : list T) : T := fold_left (fun out i => out + pospart i) v nzero.
End Expr.
Arguments aff : clear implicits.
Arguments quad : clear implicits.
