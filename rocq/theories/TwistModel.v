(** * Model of trajopt_common/src/utils.cpp: addTwist, and of the column the analytic Jacobian takes from it

    Three-vectors and three by three matrices are records; sqrt, sin and cos are parameters.  An Isometry3d is its
    linear part and its translation: rotation() of an isometry is linear().  What Eigen computes for a product, an
    inverse, normalized() and AngleAxis is written out here, as those are what addTwist relies on. *)
From Coq Require Import ZArith List Bool.
From Verif Require Import Num.

Record vec3 (T : Type) := V3 { vx : T; vy : T; vz : T }.
Arguments V3 {T}. Arguments vx {T}. Arguments vy {T}. Arguments vz {T}.
(** by rows *)
Record mat3 (T : Type) := M3 { r0 : vec3 T; r1 : vec3 T; r2 : vec3 T }.
Arguments M3 {T}. Arguments r0 {T}. Arguments r1 {T}. Arguments r2 {T}.
Record iso (T : Type) := Iso { linear : mat3 T; translation : vec3 T }.
Arguments Iso {T}. Arguments linear {T}. Arguments translation {T}.

Section Twist.
  Context {T : Type} {NT : Num T}.
  Variables nsqrt nsin ncos : T -> T.
  Local Open Scope num_scope.

  Definition dot (u v : vec3 T) : T := vx u * vx v + vy u * vy v + vz u * vz v.
  Definition cross (u v : vec3 T) : vec3 T :=
    V3 (vy u * vz v - vz u * vy v) (vz u * vx v - vx u * vz v) (vx u * vy v - vy u * vx v).
  Definition vadd (u v : vec3 T) : vec3 T := V3 (vx u + vx v) (vy u + vy v) (vz u + vz v).
  Definition vscale (k : T) (u : vec3 T) : vec3 T := V3 (vx u * k) (vy u * k) (vz u * k).
  Definition vdiv (u : vec3 T) (k : T) : vec3 T := V3 (vx u / k) (vy u / k) (vz u / k).
  Definition transpose (m : mat3 T) : mat3 T :=
    M3 (V3 (vx (r0 m)) (vx (r1 m)) (vx (r2 m))) (V3 (vy (r0 m)) (vy (r1 m)) (vy (r2 m))) (V3 (vz (r0 m)) (vz (r1 m)) (vz (r2 m))).
  Definition apply (m : mat3 T) (u : vec3 T) : vec3 T := V3 (dot (r0 m) u) (dot (r1 m) u) (dot (r2 m) u).
  Definition mmul (a b : mat3 T) : mat3 T :=
    let b' := transpose b in M3 (apply b' (r0 a)) (apply b' (r1 a)) (apply b' (r2 a)).
  (** Eigen's inverse of a 3x3 matrix: the cofactors over the determinant *)
  Definition inverse (m : mat3 T) : mat3 T :=
    let c := transpose m in
    let det := dot (r0 c) (cross (r1 c) (r2 c)) in
    M3 (vdiv (cross (r1 c) (r2 c)) det) (vdiv (cross (r2 c) (r0 c)) det) (vdiv (cross (r0 c) (r1 c)) det).
  (** norm(), normalized() *)
  Definition norm (u : vec3 T) : T := nsqrt (dot u u).
  Definition normalized (u : vec3 T) : vec3 T := let z := dot u u in if z >? nzero then vdiv u (nsqrt z) else u.
  (** AngleAxis::toRotationMatrix *)
  Definition angle_axis (angle : T) (axis : vec3 T) : mat3 T :=
    let s := vscale (nsin angle) axis in
    let c := ncos angle in
    let k := vscale (none_ - c) axis in
    M3 (V3 (vx k * vx axis + c) (vx k * vy axis - vz s) (vx k * vz axis + vy s))
       (V3 (vx k * vy axis + vz s) (vy k * vy axis + c) (vy k * vz axis - vx s))
       (V3 (vx k * vz axis - vy s) (vy k * vz axis + vx s) (vz k * vz axis + c)).

  (** addTwist(t1, twist, dt), 5-16; the twist is its head(3) and its tail(3) *)
  Definition add_twist (t1 : iso T) (twist : vec3 T * vec3 T) (dt : T) : iso T :=
    let a := vscale dt (apply (inverse (linear t1)) (snd twist)) in
    Iso (mmul (linear t1) (angle_axis (norm a) (normalized a)))
        (vadd (translation t1) (vscale dt (fst twist))).

  (** jacobianChangeBase(jac, base) on one column: both halves are turned by the rotation of [base]; belongs to tesseract *)
  Definition change_base (base : mat3 T) (twist : vec3 T * vec3 T) : vec3 T * vec3 T := (apply base (fst twist), apply base (snd twist)).
  (** One column of the analytic Jacobian, rotational half, cartesian_position_constraint.cpp 349-358 (source active; 336-345
      is the same with the two frames exchanged): [twist] is the column of calcJacobian at the source frame, [rot_err] the
      rotational error of a rotation (calcRotationalError of tesseract), and calcJacobianTransformErrorDiff(target, source,
      perturbed) is taken to be rot_err(target^-1 perturbed) - rot_err(target^-1 source). *)
  Definition vsub (u v : vec3 T) : vec3 T := V3 (vx u - vx v) (vy u - vy v) (vz u - vz v).
  Definition rot_diff (rot_err : mat3 T -> vec3 T) (target source perturbed : iso T) : vec3 T :=
    vsub (rot_err (mmul (inverse (linear target)) (linear perturbed))) (rot_err (mmul (inverse (linear target)) (linear source))).
  Definition analytic_column (rot_err : mat3 T -> vec3 T) (target source : iso T) (twist : vec3 T * vec3 T) (eps : T) : vec3 T :=
    let g := change_base (inverse (linear target)) twist in
    vdiv (rot_diff rot_err target source (add_twist source g eps)) eps.
End Twist.
