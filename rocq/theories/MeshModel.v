(** * The triangle mesh of the bundled convex decomposition

    Model of [VHACD::Mesh], /repo/trajopt_ext/vhacd/include/vhacd/inc/vhacdMesh.h lines 78-144
    and /repo/trajopt_ext/vhacd/src/vhacdMesh.cpp lines 46-232, with the vector operations of
    inc/vhacdVector.inl lines 48-175 and the centroid of src/FloatMath.inl lines 686-798 and
    5138-5192.  The two [SArray]s of the mesh are lists here (the array itself is modelled in
    SArrayModel.v).  Not modelled: [ComputeConvexHull] (lines 125-153, it converts what Bullet's
    hull computer returns) and the loading and saving of files (only in debug builds).
    Simplified: [fm_computeCentroid] addresses point [i] as [points[3 * i]] in 32 bit unsigned
    arithmetic, which the model does not let wrap (it would from 1431655766 points on). *)
From Coq Require Import List ZArith.
From Verif Require Import Common Num.
Import ListNotations.

Section Mesh.
  Context {T : Type} `{Num T}.
  Local Open Scope num_scope.

  (** [sqrt], vhacdVector.inl line 50, FloatMath.inl lines 712 and 783. *)
  Variable sq : T -> T.

  (** [Vec3<double>], inc/vhacdVector.h. *)
  Record mvec := MV { vx : T; vy : T; vz : T }.

  (** [operator+=], [operator/=], [operator^], [operator*], [operator-]:
      vhacdVector.inl lines 60-65, 88-93, 102-107, 109-112, 119-122. *)
  Definition mv_add (a b : mvec) : mvec := MV (vx a + vx b) (vy a + vy b) (vz a + vz b).
  Definition mv_sub (a b : mvec) : mvec := MV (vx a - vx b) (vy a - vy b) (vz a - vz b).
  Definition mv_div (a : mvec) (k : T) : mvec := MV (vx a / k) (vy a / k) (vz a / k).
  Definition mv_cross (a b : mvec) : mvec :=
    MV (vy a * vz b - vz a * vy b) (vz a * vx b - vx a * vz b) (vx a * vy b - vy a * vx b).
  Definition mv_dot (a b : mvec) : T := vx a * vx b + vy a * vy b + vz a * vz b.
  (** [GetNorm], lines 47-51. *)
  Definition mv_norm (a : mvec) : T := sq (vx a * vx a + vy a * vy a + vz a * vz a).
  (** [ComputeVolume4], lines 172-175. *)
  Definition volume4 (a b c d : mvec) : T := mv_dot (mv_sub a d) (mv_cross (mv_sub b d) (mv_sub c d)).

  (** [Vec3<int32_t>]: the corners of a triangle. *)
  Definition mtri : Type := Z * Z * Z.

  (** The members, vhacdMesh.h lines 136-143.  [None] for a vector that nothing has written:
      the default constructor of [Vec3] leaves it uninitialised (vhacdVector.inl line 161). *)
  Record mesh := Mesh {
    m_points : list mvec;
    m_triangles : list mtri;
    m_minBB : option mvec;
    m_maxBB : option mvec;
    m_center : option mvec;
    m_diag : T
  }.

  (** [Mesh::Mesh], vhacdMesh.cpp line 46. *)
  Definition mesh_new : mesh := Mesh [] [] None None None none_.

  (** [AddPoint], [AddTriangle], vhacdMesh.h lines 81 and 89. *)
  Definition add_point (m : mesh) (p : mvec) : mesh :=
    Mesh (m_points m ++ [p]) (m_triangles m) (m_minBB m) (m_maxBB m) (m_center m) (m_diag m).
  Definition add_triangle (m : mesh) (t : mtri) : mesh :=
    Mesh (m_points m) (m_triangles m ++ [t]) (m_minBB m) (m_maxBB m) (m_center m) (m_diag m).

  (** [GetPoint(static_cast<size_t>(i))], vhacdMesh.h line 83: reading outside the array is
      undefined (a negative index becomes a huge one). *)
  Definition point_at (ps : list mvec) (i : Z) : outcome mvec :=
    if (i <? 0)%Z then Undef
    else match nth_error ps (Z.to_nat i) with Some p => Ok p | None => Undef end.

  (** The three corners of a triangle, vhacdMesh.cpp lines 117-119 and 194-196. *)
  Definition corners (ps : list mvec) (t : mtri) : outcome (mvec * mvec * mvec) :=
    let '(i, j, k) := t in
    obind (point_at ps i) (fun a => obind (point_at ps j) (fun b => obind (point_at ps k) (fun c =>
      Ok (a, b, c)))).

  (** [ComputeVolume], lines 96-123. *)
  Fixpoint volume_loop (ps : list mvec) (bary : mvec) (ts : list mtri) (acc : T) : outcome T :=
    match ts with
    | [] => Ok acc
    | t :: r =>
        obind (corners ps t) (fun abc => let '(a, b, c) := abc in
          volume_loop ps bary r (acc + volume4 a b c bary))
    end.
  Definition barycenter (ps : list mvec) : mvec :=
    mv_div (fold_left mv_add ps (MV nzero nzero nzero)) (nofZ (Z.of_nat (length ps))).
  Definition compute_volume (m : mesh) : outcome T :=
    match m_points m, m_triangles m with
    | [], _ | _, [] => Ok nzero
    | ps, ts => obind (volume_loop ps (barycenter ps) ts nzero) (fun v => Ok (v / nofZ 6))
    end.

  (** [IsInside], lines 181-204. *)
  Fixpoint inside_loop (ps : list mvec) (p : mvec) (ts : list mtri) : outcome bool :=
    match ts with
    | [] => Ok true
    | t :: r =>
        obind (corners ps t) (fun abc => let '(a, b, c) := abc in
          if volume4 a b c p <? nzero then Ok false else inside_loop ps p r)
    end.
  Definition is_inside (m : mesh) (p : mvec) : outcome bool :=
    match m_points m, m_triangles m with
    | [], _ | _, [] => Ok false
    | ps, ts => inside_loop ps p ts
    end.

  (** [Clip], lines 154-180; a plane is [m_a, m_b, m_c, m_d] (vhacdMesh.h lines 41-49). *)
  Definition plane_dist (pl : T * T * T * T) (p : mvec) : T :=
    let '(a, b, c, d) := pl in a * vx p + b * vy p + c * vz p + d.
  Definition clip_step (pl : T * T * T * T) (acc : list mvec * list mvec) (p : mvec) :
      list mvec * list mvec :=
    let '(pos, neg) := acc in
    let d := plane_dist pl p in
    if d >? nzero then (pos ++ [p], neg)
    else if d <? nzero then (pos, neg ++ [p])
    else (pos ++ [p], neg ++ [p]).
  Definition clip (m : mesh) (pl : T * T * T * T) (pos neg : list mvec) : list mvec * list mvec :=
    fold_left (clip_step pl) (m_points m) (pos, neg).

  (** [enorm0_3d] and [triangle_area_3d], FloatMath.inl lines 686-720 and 722-789. *)
  Definition enorm0 (p q : mvec) : T :=
    sq ((vx q - vx p) * (vx q - vx p) + (vy q - vy p) * (vy q - vy p)
        + (vz q - vz p) * (vz q - vz p)).
  Definition triangle_area (p1 p2 p3 : mvec) : T :=
    let dot := (vx p2 - vx p1) * (vx p3 - vx p1) + (vy p2 - vy p1) * (vy p3 - vy p1)
               + (vz p2 - vz p1) * (vz p3 - vz p1) in
    let base := enorm0 p1 p2 in
    let height :=
      if base =? nzero then nzero
      else
        let alpha := dot / (base * base) in
        let a := vx p3 - vx p1 - alpha * (vx p2 - vx p1) in
        let b := vy p3 - vy p1 - alpha * (vy p2 - vy p1) in
        let c := vz p3 - vz p1 - alpha * (vz p2 - vz p1) in
        sq (a * a + b * b + c * c) in
    ndec 5 (-1) * base * height.

  (** [fm_computeCentroid], FloatMath.inl lines 5138-5192: the numerator and the denominator
      after the loop, then the centre. *)
  Definition third (a b c : T) : T := (a + b + c) / nofZ 3.
  Fixpoint centroid_loop (ps : list mvec) (ts : list mtri) (num : mvec) (den : T) :
      outcome (mvec * T) :=
    match ts with
    | [] => Ok (num, den)
    | t :: r =>
        obind (corners ps t) (fun abc => let '(a, b, c) := abc in
          let area := triangle_area a b c in
          centroid_loop ps r
            (MV (vx num + third (vx a) (vx b) (vx c) * area)
                (vy num + third (vy a) (vy b) (vy c) * area)
                (vz num + third (vz a) (vz b) (vz c) * area))
            (den + area))
    end.
  Definition compute_centroid (ps : list mvec) (ts : list mtri) : outcome mvec :=
    obind (centroid_loop ps ts (MV nzero nzero nzero) nzero) (fun nd =>
      let '(num, den) := nd in
      let recip := none_ / den in
      Ok (MV (vx num * recip) (vy num * recip) (vz num * recip))).

  (** [ComputeCenter], vhacdMesh.cpp lines 48-94: the mesh afterwards and the vector that the
      returned reference denotes. *)
  Definition lower (a b : T) : T := if b <? a then b else a.
  Definition upper (a b : T) : T := if b >? a then b else a.
  Definition box_step (mm : mvec * mvec) (p : mvec) : mvec * mvec :=
    let '(lo, hi) := mm in
    (MV (lower (vx lo) (vx p)) (lower (vy lo) (vy p)) (lower (vz lo) (vz p)),
     MV (upper (vx hi) (vx p)) (upper (vy hi) (vy p)) (upper (vz hi) (vz p))).
  Definition compute_center (m : mesh) : outcome (mesh * option mvec) :=
    match m_points m with
    | [] => Ok (m, m_center m)
    | p0 :: r =>
        obind (compute_centroid (m_points m) (m_triangles m)) (fun c =>
          let '(lo, hi) := fold_left box_step r (p0, p0) in
          Ok (Mesh (m_points m) (m_triangles m) (Some lo) (Some hi) (Some c) (m_diag m), Some c))
    end.

  (** [ComputeDiagBB], lines 205-232: here the upper bound is looked at only if the lower one
      stays. *)
  Definition range_step (lh : T * T) (x : T) : T * T :=
    let '(lo, hi) := lh in
    if x <? lo then (x, hi) else if x >? hi then (lo, x) else (lo, hi).
  Definition diag_step (mm : mvec * mvec) (p : mvec) : mvec * mvec :=
    let '(lo, hi) := mm in
    let '(lx, hx) := range_step (vx lo, vx hi) (vx p) in
    let '(ly, hy) := range_step (vy lo, vy hi) (vy p) in
    let '(lz, hz) := range_step (vz lo, vz hi) (vz p) in
    (MV lx ly lz, MV hx hy hz).
  Definition compute_diag (m : mesh) : mesh * T :=
    match m_points m with
    | [] => (m, nzero)
    | p0 :: r =>
        let '(lo, hi) := fold_left diag_step r (p0, p0) in
        let d := mv_norm (mv_sub hi lo) in
        (Mesh (m_points m) (m_triangles m) (m_minBB m) (m_maxBB m) (m_center m) d, d)
    end.
End Mesh.
Arguments mvec T : clear implicits.
Arguments mesh T : clear implicits.
