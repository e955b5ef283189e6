(** * What the mesh routines should compute: statements about points, triangles and volumes *)
From Coq Require Import List ZArith Reals Permutation.
From Verif Require Import Common Num RSums MeshModel.
Import ListNotations.
Local Open Scope R_scope.

(** Points with real coordinates. *)
Notation pt := (mvec R).
Definition origin : pt := MV 0 0 0.

(** The determinant of three vectors: six times the signed volume of the tetrahedron they span
    with the origin. *)
Definition det3 (a b c : pt) : R :=
  vx a * (vy b * vz c - vz b * vy c) - vy a * (vx b * vz c - vz b * vx c)
  + vz a * (vx b * vy c - vy b * vx c).
Definition minus (a b : pt) : pt := MV (vx a - vx b) (vy a - vy b) (vz a - vz b).

(** Point number [i]. *)
Definition nth_pt (ps : list pt) (i : Z) : pt := nth (Z.to_nat i) ps origin.

(** Every corner of every triangle is the number of a point. *)
Definition is_index (n : nat) (i : Z) : Prop := (0 <= i < Z.of_nat n)%Z.
Definition in_range (ps : list pt) (ts : list mtri) : Prop :=
  forall i j k, In (i, j, k) ts ->
  is_index (length ps) i /\ is_index (length ps) j /\ is_index (length ps) k.

(** The directed edges; a mesh is closed if each is met as often as its reverse. *)
Definition edges (ts : list mtri) : list (Z * Z) :=
  flat_map (fun t : mtri => let '(i, j, k) := t in [(i, j); (j, k); (k, i)]) ts.
Definition closed (ts : list mtri) : Prop :=
  Permutation (edges ts) (map (fun e => (snd e, fst e)) (edges ts)).

(** The volume enclosed by a closed mesh, seen from the origin. *)
Definition enclosed (ps : list pt) (ts : list mtri) : R :=
  rsum (fun t : mtri => let '(i, j, k) := t in
          det3 (nth_pt ps i) (nth_pt ps j) (nth_pt ps k)) ts / 6.

(** An affine map, given by the images of the axes and of the origin. *)
Definition affine (e1 e2 e3 o : pt) (p : pt) : pt :=
  MV (vx p * vx e1 + vy p * vx e2 + vz p * vx e3 + vx o)
     (vx p * vy e1 + vy p * vy e2 + vz p * vy e3 + vy o)
     (vx p * vz e1 + vy p * vz e2 + vz p * vz e3 + vz o).

(** A triangle seen from the other side. *)
Definition flip (t : mtri) : mtri := let '(i, j, k) := t in (j, i, k).
(** The triangles of a second mesh whose points come after [n] others. *)
Definition shift (n : nat) (t : mtri) : mtri :=
  let '(i, j, k) := t in ((i + Z.of_nat n)%Z, (j + Z.of_nat n)%Z, (k + Z.of_nat n)%Z).

(** The signed distance (times twice the area) of a point from the plane of a triangle: positive
    on the side from which the corners run counter-clockwise. *)
Definition above (ps : list pt) (t : mtri) (p : pt) : R :=
  let '(i, j, k) := t in
  let a := nth_pt ps i in
  det3 (minus p a) (minus (nth_pt ps j) a) (minus (nth_pt ps k) a).

(** Weighted sums of points; [q] is a convex combination of the points [ps]. *)
Definition weighted (ws : list R) (ps : list pt) : pt :=
  MV (rsum (fun wp => fst wp * vx (snd wp)) (combine ws ps))
     (rsum (fun wp => fst wp * vy (snd wp)) (combine ws ps))
     (rsum (fun wp => fst wp * vz (snd wp)) (combine ws ps)).
Definition hull (ps : list pt) (q : pt) : Prop :=
  exists ws, length ws = length ps /\ (forall w, In w ws -> 0 <= w) /\ rsum (fun w => w) ws = 1 /\
             q = weighted ws ps.

(** The distance of two points and the area of the triangle with three corners. *)
Definition norm (a : pt) : R := sqrt (vx a * vx a + vy a * vy a + vz a * vz a).
Definition dist (a b : pt) : R := norm (minus a b).
Definition cross (a b : pt) : pt :=
  MV (vy a * vz b - vz a * vy b) (vz a * vx b - vx a * vz b) (vx a * vy b - vy a * vx b).
Definition area (a b c : pt) : R := norm (cross (minus b a) (minus c a)) / 2.
Definition tri_area (ps : list pt) (t : mtri) : R :=
  let '(i, j, k) := t in area (nth_pt ps i) (nth_pt ps j) (nth_pt ps k).
Definition tri_mean (f : pt -> R) (ps : list pt) (t : mtri) : R :=
  let '(i, j, k) := t in (f (nth_pt ps i) + f (nth_pt ps j) + f (nth_pt ps k)) / 3.
Definition surface (ps : list pt) (ts : list mtri) : R := rsum (tri_area ps) ts.
(** The mean of a coordinate over the surface. *)
Definition surface_mean (f : pt -> R) (ps : list pt) (ts : list mtri) : R :=
  rsum (fun t => tri_area ps t * tri_mean f ps t) ts / surface ps ts.

(** [lo] and [hi] are the least and the greatest value of [f] on the points. *)
Definition tight (f : pt -> R) (ps : list pt) (lo hi : R) : Prop :=
  (forall p, In p ps -> lo <= f p <= hi) /\
  (exists p, In p ps /\ f p = lo) /\ (exists p, In p ps /\ f p = hi).
Definition tight_box (ps : list pt) (lo hi : pt) : Prop :=
  tight vx ps (vx lo) (vx hi) /\ tight vy ps (vy lo) (vy hi) /\ tight vz ps (vz lo) (vz hi).

(** A mesh with these points and triangles, whatever the other members are. *)
Definition made_of (m : mesh R) (ps : list pt) (ts : list mtri) : Prop :=
  m_points m = ps /\ m_triangles m = ts.

(** The left side of the equation [a x + b y + c z + d = 0] of a plane. *)
Definition side (pl : R * R * R * R) (p : pt) : R :=
  let '(a, b, c, d) := pl in a * vx p + b * vy p + c * vz p + d.

(** The faces of a tetrahedron seen from outside, for four points of which the last lies above
    the triangle of the first three. *)
Definition tetra_tris : list mtri := [(0, 2, 1); (0, 1, 3); (0, 3, 2); (1, 2, 3)]%Z.
