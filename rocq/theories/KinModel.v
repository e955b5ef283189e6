(** * Model of the error functions of trajopt/src/kinematic_terms.cpp

    Vectors are lists, a matrix is the list of its rows.  Forward kinematics, calcJacobian, the singular value
    decomposition and calcTransformError belong to tesseract and Eigen; they are parameters here.  [Undef] is a
    failed assertion: the assert of the source, or Eigen's on a negative size or an index out of range. *)
From Coq Require Import ZArith List Bool Arith.
From Verif Require Import Num Common ScoExprModel ModelingModel ArrayModel TrajCostModel CollisionModel TrajoptModel.
Import ListNotations.

Section Kin.
  Context {T : Type} {NT : Num T}.
  Local Open Scope num_scope.
  Local Open Scope nat_scope.
  Local Open Scope num_scope.

  (** v(i), m(i, j) *)
  Definition el (x : list T) (i : nat) : T := nth i x nzero.
  Definition ent (m : list (list T)) (i j : nat) : T := el (nth i m []) j.
  Definition rows_of (r c : nat) (f : nat -> nat -> T) : list (list T) := map (fun i => map (f i) (seq 0 c)) (seq 0 r).

  (** ** Timed joint terms: the first half of var_vals are joint values, the second half 1/dt *)
  (** JointVelErrCalculator, 448-464; segment(1, -1) asserts *)
  Definition joint_vel_err (target upper lower : T) (x : list T) : outcome (list T) :=
    let half := (length x / 2)%nat in
    if Nat.odd (length x) || (half =? 0)%nat then Undef
    else
      let vel := map (fun i => (el x (i + 1)%nat - el x i) * el x (half + 1 + i)%nat) (seq 0 (half - 1)) in
      Ok (map (fun v => - (upper - (v - target))) vel ++ map (fun v => lower - (v - target)) vel).
  (** JointVelJacCalculator, 466-492; the last assignment to an entry decides *)
  Definition joint_vel_jac (x : list T) : outcome (list (list T)) :=
    let half := (length x / 2)%nat in
    if (half =? 0)%nat then Undef
    else
      let top := rows_of (half - 1) (length x) (fun i j =>
        let time_index := (i + half + 1)%nat in
        if (j =? time_index)%nat then el x (i + 1)%nat - el x i
        else if (j =? i + 1)%nat then none_ * el x time_index
        else if (j =? i)%nat then nofZ (-1) * el x time_index
        else nzero) in
      Ok (top ++ map (map nopp) top).

  (** JointAccErrCalculator, 495-511; vel_calc(0, 0, 0) *)
  Definition joint_acc_err (limit : T) (x : list T) : outcome (list T) :=
    let half := (length x / 2)%nat in
    obind (joint_vel_err nzero nzero nzero x) (fun vels =>
    if (half <? 2)%nat then Undef
    else Ok (map (fun i => nofZ 2 * (el vels (i + 1)%nat - el vels i) / (el x (half + 1 + i)%nat + el x (half + 2 + i)%nat) - limit)
               (seq 0 (half - 2)))).
  (** JointAccJacCalculator, 513-539; sq(x) is x*x *)
  Definition joint_acc_jac (x : list T) : outcome (list (list T)) :=
    let half := (length x / 2)%nat in
    obind (joint_vel_err nzero nzero nzero x) (fun vels =>
    obind (joint_vel_jac x) (fun vel_jac =>
    if (half <? 2)%nat then Undef
    else Ok (rows_of (half - 2) (length x) (fun i j =>
      let dt_1 := (i + half + 1)%nat in
      let dt_2 := (dt_1 + 1)%nat in
      let total_dt := el x dt_1 + el x dt_2 in
      if ((j =? dt_1) || (j =? dt_2))%nat then
        nofZ 2 * ((ent vel_jac (i + 1)%nat j - ent vel_jac i j) / total_dt - (el vels (i + 1)%nat - el vels i) / (total_dt * total_dt))
      else if ((j =? i) || (j =? i + 1) || (j =? i + 2))%nat then
        nofZ 2 * (ent vel_jac (i + 1)%nat j - ent vel_jac i j) / total_dt
      else nzero)))).

  (** JointJerkErrCalculator, 542-557; acc_calc(0) *)
  Definition joint_jerk_err (limit : T) (x : list T) : outcome (list T) :=
    let half := (length x / 2)%nat in
    obind (joint_acc_err nzero x) (fun acc =>
    if (half <? 3)%nat then Undef
    else Ok (map (fun i => nofZ 3 * (el acc (i + 1)%nat - el acc i) /
                             (el x (half + 1 + i)%nat + el x (half + 2 + i)%nat + el x (half + 3 + i)%nat) - limit)
               (seq 0 (half - 3)))).
  (** JointJerkJacCalculator, 559-592 *)
  Definition joint_jerk_jac (x : list T) : outcome (list (list T)) :=
    let half := (length x / 2)%nat in
    obind (joint_acc_err nzero x) (fun acc =>
    obind (joint_acc_jac x) (fun acc_jac =>
    if (half <? 3)%nat then Undef
    else Ok (rows_of (half - 3) (length x) (fun i j =>
      let dt_1 := (i + half + 1)%nat in
      let dt_2 := (dt_1 + 1)%nat in
      let dt_3 := (dt_2 + 1)%nat in
      let total_dt := el x dt_1 + el x dt_2 + el x dt_3 in
      if ((j =? dt_1) || (j =? dt_2) || (j =? dt_3))%nat then
        nofZ 3 * ((ent acc_jac (i + 1)%nat j - ent acc_jac i j) / total_dt - (el acc (i + 1)%nat - el acc i) / (total_dt * total_dt))
      else if ((j =? i) || (j =? i + 1) || (j =? i + 2) || (j =? i + 3))%nat then
        nofZ 3 * (ent acc_jac (i + 1)%nat j - ent acc_jac i j) / total_dt
      else nzero)))).

  (** TimeCostCalculator and TimeCostJacCalculator, 594-606; Eigen may add in another order *)
  Definition time_cost (limit : T) (x : list T) : list T := [vsum (map (fun v => none_ / v) x) - limit].
  Definition time_cost_jac (x : list T) : list (list T) := [map (fun v => nofZ (-1) * (none_ / (v * v))) x].

  (** TotalTimeTermInfo::hatch, problem_description.cpp 1863-1875: the penalty and the constraint type *)
  Definition total_time_penalty (limit : T) : penalty * ctype :=
    if double_equals limit nzero then (SQUARED, EQ) else (HINGE, INEQ).

  (** ** Cartesian velocity *)
  (** [pos p q]: the position, for joint values q, of the point p of the link; tcp_'s translation is p.
      CartVelErrCalculator, 429-446 *)
  Definition cart_vel_err (pos : list T -> list T -> list T) (tcp : list T) (n : nat) (limit : T) (x : list T) : outcome (list T) :=
    if (length x <? n)%nat then Undef
    else
      let p0 := pos tcp (firstn n x) in
      let p1 := pos tcp (skipn (length x - n) x) in
      Ok (map (fun k => el p1 k - el p0 k - limit) [0; 1; 2]%nat ++ map (fun k => el p0 k - el p1 k - limit) [0; 1; 2]%nat).
  (** Vector3d::isZero() with Eigen's default precision for double *)
  Definition is_zero (p : list T) : bool := forallb (fun v => nabs v <=? ndec 1 (-12)) p.
  (** CartVelJacCalculator, 393-419: [jac q] and [jac_at p q] are the two overloads of calcJacobian *)
  Definition cart_vel_jac (jac : list T -> list (list T)) (jac_at : list T -> list T -> list (list T)) (tcp : list T) (n : nat) (x : list T)
      : outcome (list (list T)) :=
    if (length x <? n)%nat then Undef
    else
      let q0 := firstn n x in
      let q1 := skipn (length x - n) x in
      let jac0 := if is_zero tcp then jac q0 else jac_at tcp q0 in
      let jac1 := if is_zero tcp then jac q1 else jac_at tcp q1 in
      let block m k := map (fun j => ent m k j) (seq 0 n) in
      Ok (map (fun k => map nopp (block jac0 k) ++ block jac1 k) [0; 1; 2]%nat ++
          map (fun k => block jac0 k ++ map nopp (block jac1 k)) [0; 1; 2]%nat).

  (** ** Cartesian poses *)
  (** the constructor throws (validateTolerances, 41-58) *)
  Definition tolerances_valid (lower upper : list T) : bool :=
    (length lower =? length upper)%nat && negb (existsb (fun lu => snd lu <? fst lu) (combine lower upper)).
  (** almostEqualRelativeAndAbs on vectors *)
  Definition almost_equal_vec (a b : list T) : bool :=
    (length a =? length b)%nat && forallb (fun p => almost_equal (fst p) (snd p)) (combine a b).
  (** tesseract::common::applyTolerances, on one component and on a vector *)
  Definition apply_tolerance (lower upper e : T) : T :=
    if (lower <=? e) && (e <=? upper) then nzero else if e <? lower then e - lower else e - upper.
  Definition apply_tolerances (lower upper err : list T) : list T :=
    map (fun t => apply_tolerance (fst (fst t)) (snd (fst t)) (snd t)) (combine (combine lower upper) err).
  (** the two kinds of error function, 78-96 and 208-246 *)
  Definition tolerant (lower upper err : list T) : list T :=
    match lower, upper with
    | [], [] => err
    | _, _ => if almost_equal_vec lower upper then err else apply_tolerances lower upper err
    end.
  (** reduced_err, 107-109 *)
  Definition reduced (indices : list nat) (err : list T) : list T := map (el err) indices.

  Section Pose.
    Context {Tf : Type}.
    (** calcTransformError(t1, t2); the frames times their offsets *)
    Variable transform_error : Tf -> Tf -> list T.
    Variables source target : list T -> Tf.
    (** calcJacobianTransformErrorDiff: (target, source, perturbed source, lower, upper), and the version for
        two moving frames (target, perturbed target, source, perturbed source, lower, upper) *)
    Variable error_diff : Tf -> Tf -> Tf -> list T -> list T -> list T.
    Variable error_diff2 : Tf -> Tf -> Tf -> Tf -> list T -> list T -> list T.

    (** CartPoseErrCalculator::operator(), 251-264 *)
    Definition cart_pose_err (target_active : bool) (indices : list nat) (lower upper q : list T) : list T :=
      let e := if target_active then transform_error (source q) (target q) else transform_error (target q) (source q) in
      reduced indices (tolerant lower upper e).
    (** DynamicCartPoseErrCalculator::operator(), 99-112 *)
    Definition dynamic_pose_err (indices : list nat) (lower upper q : list T) : list T :=
      reduced indices (tolerant lower upper (transform_error (target q) (source q))).

    (** the loop over the columns, 358-368 and 164-183: dof_vals_pert before column i; [d] is the (reduced)
        difference of the errors at the perturbed values *)
    Fixpoint columns (eps : T) (dof_vals pert : list T) (d : list T -> list T) (i k : nat) : list (list T) :=
      match k with
      | O => []
      | S k =>
          let pert1 := upd pert i (el dof_vals i + eps) in
          map (fun v => v / eps) (d pert1) :: columns eps dof_vals (upd pert1 i (el dof_vals i)) d (i + 1) k
      end.
    (** CartPoseJacCalculator, 307-372: the columns *)
    Definition cart_pose_jac (target_active : bool) (indices : list nat) (eps : T) (lower upper q : list T) : list (list T) :=
      let d pert := if target_active then error_diff (source q) (target q) (target pert) lower upper
                    else error_diff (target q) (source q) (source pert) lower upper in
      columns eps q q (fun pert => reduced indices (d pert)) 0 (length q).
    (** DynamicCartPoseJacCalculator, 157-187 *)
    Definition dynamic_pose_jac (indices : list nat) (eps : T) (lower upper q : list T) : list (list T) :=
      columns eps q q (fun pert => reduced indices (error_diff2 (target q) (target pert) (source q) (source pert) lower upper)) 0 (length q).
  End Pose.

  (** the components a pose term keeps and their coefficients, problem_description.cpp 753-779 and 894-920 *)
  Definition pose_selection (pos_coeffs rot_coeffs : list T) : list nat * list T :=
    let keep (off : nat) (c : list T) := filter (fun ic => ndec 1 (-5) <? nabs (snd ic)) (map (fun i => (off + i, el c i)%nat) (seq 0 3)) in
    let l := keep 0%nat pos_coeffs ++ keep 3%nat rot_coeffs in
    (map fst l, map snd l).

  (** ** Singularities *)
  (** AvoidSingularityErrCalculator, 608-625: [sv] is the smallest singular value *)
  Definition singularity_err (lambda sv : T) : T := none_ / (sv + lambda) - none_ / (ndec 1 (-1) + lambda).
  (** AvoidSingularityJacCalculator, 640-665: [dsv] are the numbers u^T dJ/dx_i v *)
  Definition singularity_jac (lambda sv : T) (dsv : list T) : list T :=
    map (fun d => d * (nofZ (-1) / ((sv + lambda) * (sv + lambda)))) dsv.
  (** jacobianPartialDerivative, 627-638, and u^T dJ v *)
  Definition jac_partial (jac : list T -> list (list T)) (eps : T) (q : list T) (k : nat) : list (list T) :=
    map (fun rr => map (fun ab => (fst ab - snd ab) / eps) (combine (fst rr) (snd rr)))
      (combine (jac (upd q k (el q k + eps))) (jac q)).
  Definition bilinear (u : list T) (m : list (list T)) (v : list T) : T := vdot u (map (fun r => vdot r v) m).
  (** AvoidSingularityJacCalculator as a whole: [svd] gives the last columns of U and V and the last singular value *)
  Definition singularity_gradient (jac : list T -> list (list T)) (svd : list (list T) -> list T * T * list T) (eps lambda : T) (q : list T) : list T :=
    let '(u, sv, v) := svd (jac q) in
    singularity_jac lambda sv (map (fun k => bilinear u (jac_partial jac eps q k) v) (seq 0 (length q))).

  (** AvoidSingularitySubsetErrCalculator, 667-676, and AvoidSingularitySubsetJacCalculator, 678-703.  [ndebug]: the
      calls inside assert() are not compiled; [g] and [g'] are the contents of the uninitialised vectors.  [err]
      and [jac] are the base class on the subset joints *)
  Definition subset_vals (ndebug : bool) (names snames : list nat) (g x : list T) : run (list T) :=
    if ndebug then Done g
    else rdo (get_subset names x snames g) (fun r => if fst r then Done (snd r) else Assert).
  Definition subset_err (ndebug : bool) (err : list T -> list T) (names snames : list nat) (g x : list T) : run (list T) :=
    rdo (subset_vals ndebug names snames g x) (fun s => Done (err s)).
  Definition subset_jac (ndebug : bool) (jac : list T -> list T) (names snames : list nat) (g g' x : list T) : run (list T) :=
    rdo (subset_vals ndebug names snames g x) (fun s =>
    let subset_jac := jac s in
    let superset_jac := repeat nzero (length names) in
    if ndebug then Done g'
    else rdo (update_from_subset names superset_jac snames subset_jac g') (fun r => if fst r then Done (snd r) else Assert)).
End Kin.
