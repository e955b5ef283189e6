(** * Model of the joint trajectory costs and constraints

    Source: trajopt/src/trajectory_costs.cpp (whole file), trajopt/src/utils.cpp 12-23 (getTraj).

    The sixteen classes differ only in the finite difference (position 29-253, velocity 256-489,
    acceleration 492-734, jerk 737-1014) and in cost/constraint, equality/inequality; here the difference is
    an [order].  A variable is its index; indices beyond x read as 0 (Var::value asserts they do not occur).
    coeffs, targets and tolerances have one entry per column (hatch() checks it, Eigen asserts it); the
    theorems assume it.  [None] from a constructor is a thrown exception; [Undef] is an Eigen assertion. *)
From Coq Require Import ZArith List Bool.
From Verif Require Import Num Common ScoExprModel ModelingModel ArrayModel.
Import ListNotations.

Inductive order := Pos | Vel | Acc | Jerk.

Section Traj.
  Context {T : Type} {NT : Num T}.
  Local Open Scope num_scope.

  Fixpoint omap {A B} (f : A -> option B) (l : list A) : option (list B) :=
    match l with [] => Some [] | a :: l => obnd (f a) (fun b => obnd (omap f l) (fun bs => Some (b :: bs))) end.

  (** getTraj, utils.cpp 12-23 *)
  Definition get_traj (x : list T) (vars : array nat) : option (list (list T)) :=
    omap (fun i => omap (fun j => obnd (at_ vars i j) (fun v => Some (var_value v x))) (range 0 (r_cols vars))) (range 0 (r_rows vars)).

  (** row offset and coefficient of each variable of a difference, e.g. 507-509 *)
  Definition stencil (o : order) : list (Z * T) :=
    match o with
    | Pos => [(0%Z, nofZ 1)]
    | Vel => [(0%Z, nofZ (-1)); (1%Z, nofZ 1)]
    | Acc => [(0%Z, nofZ 1); (1%Z, nofZ (-2)); (2%Z, nofZ 1)]
    | Jerk => [(0%Z, nofZ (-1)); (1%Z, nofZ 3); (2%Z, nofZ (-3)); (3%Z, nofZ 1)]
    end.
  (** steps after the first one a difference reaches, e.g. 501 *)
  Definition reach (o : order) : Z := match o with Pos => 0 | Vel => 1 | Acc => 2 | Jerk => 3 end.
  (** the constructors throw when the range is too short, e.g. 501-502; JointPos* do not check *)
  Definition too_short (o : order) (first last : Z) : bool :=
    match o with Pos => false | _ => ((last - reach o) - first <? 0)%Z end.

  Definition coef (l : list T) (j : Z) : T := nth (Z.to_nat j) l nzero.
  (** acc = (x3 - 2*x2 + x1) - targ, e.g. 508-513 *)
  Definition diff_expr (o : order) (vars : array nat) (targets : list T) (i j : Z) : option (aff T) :=
    obnd (fold_left (fun e sc => obnd e (fun e => obnd (at_ vars (i + fst sc) j) (fun v => Some (aff_inc e (var_mult v (snd sc))))))
            (stencil o) (Some (aff_const nzero)))
      (fun e => Some (aff_dec_const e (coef targets j))).

  (** for (int i = first_step_; i <= last_step_ - reach; ++i) for (int j = 0; j < vars_.cols(); ++j) *)
  Definition over_steps {A} (o : order) (vars : array nat) (first last : Z) (f : Z -> Z -> option A) : option (list A) :=
    if too_short o first last then None
    else obnd (omap (fun i => omap (f i) (range 0 (r_cols vars))) (range first (last - reach o - first + 1))) (fun r => Some (concat r)).

  (** constructors of Joint*EqCost: expr_, e.g. 504-518 *)
  Definition eq_cost (o : order) (vars : array nat) (coeffs targets : list T) (first last : Z) : option (quad T) :=
    obnd (over_steps o vars first last (fun i j => obnd (diff_expr o vars targets i j) (fun e => Some (quad_scale (aff_square e) (coef coeffs j)))))
      (fun l => Some (fold_left quad_inc l (quad_const nzero))).
  (** constructors of Joint*EqConstraint: expr_vec_, e.g. 617-632 *)
  Definition eq_exprs (o : order) (vars : array nat) (coeffs targets : list T) (first last : Z) : option (list (aff T)) :=
    over_steps o vars first last (fun i j => obnd (diff_expr o vars targets i j) (fun e => Some (aff_scale e (coef coeffs j)))).
  (** constructors of Joint*IneqCost and Joint*IneqConstraint: expr_vec_, 82-104 (position) and e.g. 556-582;
      the two expressions of a cell are pushed one after the other *)
  Definition ineq_pair (o : order) (c up low : T) (e : aff T) : list (aff T) :=
    let upper := match o with
                 | Pos => aff_scale (aff_dec_const (aff_inc (aff_const nzero) e) up) c
                 | _ => aff_scale (aff_dec (aff_inc_const (aff_const nzero) up) e) (nopp c)
                 end in
    let lower := aff_scale (aff_dec (aff_inc_const (aff_const nzero) low) e) c in
    [upper; lower].
  Definition ineq_exprs (o : order) (vars : array nat) (coeffs targets ups lows : list T) (first last : Z) : option (list (aff T)) :=
    obnd (over_steps o vars first last (fun i j =>
      obnd (diff_expr o vars targets i j) (fun e => Some (ineq_pair o (coef coeffs j) (coef ups j) (coef lows j) e))))
      (fun l => Some (concat l)).

  (** convex() of the costs: the terms added to the ConvexObjective, e.g. 532-537 and 602-612 *)
  Definition eq_cost_convex (q : quad T) : list (op T) := [OpQuad q].
  Definition ineq_cost_convex (es : list (aff T)) : list (op T) := map (fun e => OpHinge e none_) es.
  (** convex() of the constraints, e.g. 646-654 and 724-734 *)
  Definition eq_cnt_convex (es : list (aff T)) : ccnts T := {| cc_eqs := es; cc_ineqs := [] |}.
  Definition ineq_cnt_convex (es : list (aff T)) : ccnts T := {| cc_eqs := []; cc_ineqs := es |}.

  (** Eigen: block of rows (all columns); diffAxis0, 16-20 *)
  Definition row_block (m : list (list T)) (first n : Z) : outcome (list (list T)) :=
    if ((0 <=? first) && (0 <=? n) && (first + n <=? Z.of_nat (length m)))%Z%bool then Ok (firstn (Z.to_nat n) (skipn (Z.to_nat first) m)) else Undef.
  Definition row_op (f : T -> T -> T) (m : list (list T)) (v : list T) : list (list T) :=
    map (fun r => map (fun p => f (fst p) (snd p)) (combine r v)) m.
  Definition diff_axis0 (m : list (list T)) : outcome (list (list T)) :=
    let n := Z.of_nat (length m) in
    obind (row_block m 1 (n - 1)) (fun a => obind (row_block m 0 (n - 1)) (fun b =>
      Ok (map (fun p => map (fun q => fst q - snd q) (combine (fst p) (snd p))) (combine a b)))).
  Fixpoint diff_times (k : nat) (m : list (list T)) : outcome (list (list T)) :=
    match k with O => Ok m | S k => obind (diff_axis0 m) (diff_times k) end.
  (** the differences minus the targets, e.g. 525-527 *)
  Definition diffs (o : order) (vars : array nat) (targets : list T) (first last : Z) (x : list T) : outcome (list (list T)) :=
    match get_traj x vars with
    | None => Undef
    | Some traj =>
        obind (row_block traj first (last - first + 1)) (fun b =>
        obind (diff_times (Z.to_nat (reach o)) b) (fun d => Ok (row_op nsub d targets)))
    end.
  Definition mat_sum (m : list (list T)) : T := vsum (concat m).
  Definition squares (m : list (list T)) : list (list T) := map (map (fun d => d * d)) m.

  (** value() of Joint*EqCost, e.g. 520-530 *)
  Definition eq_cost_value (o : order) (vars : array nat) (coeffs targets : list T) (first last : Z) (x : list T) : outcome T :=
    obind (diffs o vars targets first last x) (fun d => Ok (mat_sum (row_op nmul (squares d) coeffs))).
  (** value() of Joint*EqConstraint, e.g. 635-645; toDblVec is row-major *)
  Definition eq_cnt_value (o : order) (vars : array nat) (coeffs targets : list T) (first last : Z) (x : list T) : outcome (list T) :=
    obind (diffs o vars targets first last x) (fun d => Ok (concat (row_op nmul (squares d) coeffs))).
  (** diff1 and diff2, e.g. 592-594 *)
  Definition over_upper (d : list (list T)) (coeffs ups : list T) : list (list T) := row_op nmul (row_op nsub d ups) coeffs.
  Definition under_lower (d : list (list T)) (coeffs lows : list T) : list (list T) :=
    row_op nmul (row_op nadd (map (map (fun a => a * nofZ (-1))) d) lows) coeffs.
  Definition clip (m : list (list T)) : list (list T) := map (map (fun a => nmax a nzero)) m.
  (** value() of Joint*IneqCost, e.g. 584-598 *)
  Definition ineq_cost_value (o : order) (vars : array nat) (coeffs targets ups lows : list T) (first last : Z) (x : list T) : outcome T :=
    obind (diffs o vars targets first last x) (fun d =>
      Ok (mat_sum (clip (over_upper d coeffs ups)) + mat_sum (clip (under_lower d coeffs lows)))).
  (** value() of Joint*IneqConstraint, e.g. 705-722; JointPosIneqConstraint does not clip, 222-238 *)
  Definition ineq_cnt_value (o : order) (vars : array nat) (coeffs targets ups lows : list T) (first last : Z) (x : list T) : outcome (list T) :=
    obind (diffs o vars targets first last x) (fun d =>
      let out := map (fun p => fst p ++ snd p) (combine (over_upper d coeffs ups) (under_lower d coeffs lows)) in
      Ok (concat (match o with Pos => out | _ => clip out end))).
End Traj.
