(** * What a rotation is, and what moving along a twist means *)
From Coq Require Import Reals.
From Verif Require Import Num TwistModel.

(** keeps lengths and angles, and the orientation *)
Definition is_rotation (m : mat3 R) : Prop :=
  (forall u w, dot (apply m u) (apply m w) = dot u w) /\
  (forall u w, apply m (cross u w) = cross (apply m u) (apply m w)).
(** where the pose puts the point [u] of the body *)
Definition place (t : iso R) (u : vec3 R) : vec3 R := vadd (apply (linear t) u) (translation t).
(** the point of [f] moves with velocity [w] at time [t] *)
Definition has_velocity (f : R -> vec3 R) (t : R) (w : vec3 R) : Prop :=
  derivable_pt_lim (fun s => vx (f s)) t (vx w) /\ derivable_pt_lim (fun s => vy (f s)) t (vy w) /\ derivable_pt_lim (fun s => vz (f s)) t (vz w).
Definition add_twist_R := add_twist (T := R) sqrt sin cos.
(** axis times angle, for angles below a half turn *)
Definition is_rot_err (f : mat3 R -> vec3 R) : Prop :=
  forall n th, (dot n n = 1)%R -> (0 <= th < PI)%R -> f (angle_axis sin cos th n) = vscale th n.
