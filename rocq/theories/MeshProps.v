(** * C141: the triangle mesh of the convex decomposition *)
From Coq Require Import List ZArith Reals Permutation Lra Lia Bool Floats.SpecFloat.
From Verif Require Import Common Num NumFacts RSums MeshModel MeshSpec MeshProofs.
Import ListNotations.
Local Open Scope R_scope.

(** The volume of a closed mesh is the volume it encloses, whatever point the code refers it to,
    and whatever further points the mesh has. *)
Theorem C141_volume (m : mesh R) :
  in_range (m_points m) (m_triangles m) -> closed (m_triangles m) ->
  compute_volume m = Ok (enclosed (m_points m) (m_triangles m)).
Proof. apply volume_closed. Qed.
Print Assumptions C141_volume.

(** Moving, turning or stretching any mesh (closed or not) multiplies the volume by the
    determinant of the map. *)
Theorem C141_volume_affine (m m' : mesh R) e1 e2 e3 o :
  in_range (m_points m) (m_triangles m) ->
  made_of m' (map (affine e1 e2 e3 o) (m_points m)) (m_triangles m) ->
  exists v, compute_volume m = Ok v /\ compute_volume m' = Ok (det3 e1 e2 e3 * v).
Proof. apply volume_affine. Qed.
Print Assumptions C141_volume_affine.

(** Turning every triangle over changes the sign. *)
Theorem C141_volume_flip (m m' : mesh R) :
  in_range (m_points m) (m_triangles m) ->
  made_of m' (m_points m) (map flip (m_triangles m)) ->
  exists v, compute_volume m = Ok v /\ compute_volume m' = Ok (- v).
Proof. apply volume_flip. Qed.
Print Assumptions C141_volume_flip.

(** Two closed meshes in one: the volumes add up. *)
Theorem C141_volume_join (m m' mj : mesh R) :
  in_range (m_points m) (m_triangles m) -> closed (m_triangles m) ->
  in_range (m_points m') (m_triangles m') -> closed (m_triangles m') ->
  made_of mj (m_points m ++ m_points m')
             (m_triangles m ++ map (shift (length (m_points m))) (m_triangles m')) ->
  exists v v', compute_volume m = Ok v /\ compute_volume m' = Ok v' /\
               compute_volume mj = Ok (v + v').
Proof. apply volume_join. Qed.
Print Assumptions C141_volume_join.

(** [IsInside] answers whether the point is on or below the plane of every triangle. *)
Theorem C141_inside (m : mesh R) p :
  in_range (m_points m) (m_triangles m) -> m_triangles m <> [] ->
  exists b, is_inside m p = Ok b /\
    (b = true <-> forall t, In t (m_triangles m) -> above (m_points m) t p <= 0).
Proof. apply inside_value. Qed.
Print Assumptions C141_inside.

(** What is inside is convex: with any points it contains every convex combination of them. *)
Theorem C141_inside_convex (m : mesh R) qs p :
  in_range (m_points m) (m_triangles m) -> m_triangles m <> [] ->
  (forall q, In q qs -> is_inside m q = Ok true) -> hull qs p -> is_inside m p = Ok true.
Proof. apply inside_hull. Qed.
Print Assumptions C141_inside_convex.

(** For a tetrahedron it is the tetrahedron, and the volume is a sixth of the determinant. *)
Theorem C141_tetrahedron (m : mesh R) (a b c d p : pt) :
  made_of m [a; b; c; d] tetra_tris ->
  0 < det3 (minus b a) (minus c a) (minus d a) ->
  (is_inside m p = Ok true <-> hull [a; b; c; d] p) /\
  compute_volume m = Ok (det3 (minus b a) (minus c a) (minus d a) / 6).
Proof. intros Hm HD. split; [now apply tetra_inside|now apply tetra_volume]. Qed.
Print Assumptions C141_tetrahedron.

(** A closed mesh with negative volume (one whose triangles are seen from inside) has no points
    inside. *)
Theorem C141_inside_volume (m : mesh R) p v :
  in_range (m_points m) (m_triangles m) -> closed (m_triangles m) ->
  is_inside m p = Ok true -> compute_volume m = Ok v -> 0 <= v.
Proof. apply inside_volume. Qed.
Print Assumptions C141_inside_volume.

(** [Clip] appends the points on or above the plane to the one list and those on or below it to
    the other, in order. *)
Theorem C141_clip (m : mesh R) pl pos neg :
  exists up down : pt -> bool,
    (forall p, up p = true <-> 0 <= side pl p) /\ (forall p, down p = true <-> side pl p <= 0) /\
    clip m pl pos neg = (pos ++ filter up (m_points m), neg ++ filter down (m_points m)).
Proof.
  exists (fun p => Rleb 0 (side pl p)), (fun p => Rleb (side pl p) 0).
  split; [intros p; apply Rleb_true|]. split; [intros p; apply Rleb_true|]. apply clip_ok.
Qed.
Print Assumptions C141_clip.

(** [ComputeCenter] of a mesh with some surface: the mean over the surface, and the box around
    the points. *)
Theorem C141_centre (m : mesh R) :
  in_range (m_points m) (m_triangles m) -> 0 < surface (m_points m) (m_triangles m) ->
  exists m' c lo hi,
    compute_center sqrt m = Ok (m', Some c) /\
    made_of m' (m_points m) (m_triangles m) /\ m_diag m' = m_diag m /\
    m_center m' = Some c /\ m_minBB m' = Some lo /\ m_maxBB m' = Some hi /\
    vx c = surface_mean vx (m_points m) (m_triangles m) /\
    vy c = surface_mean vy (m_points m) (m_triangles m) /\
    vz c = surface_mean vz (m_points m) (m_triangles m) /\
    tight_box (m_points m) lo hi /\
    vx lo <= vx c <= vx hi /\ vy lo <= vy c <= vy hi /\ vz lo <= vz c <= vz hi.
Proof.
  intros Hr Hs. unfold compute_center.
  assert (Hs0 : surface (m_points m) (m_triangles m) <> 0) by lra.
  pose proof (centroid_ok _ _ Hr Hs0) as Hc.
  destruct (m_points m) as [|p0 r] eqn:E.
  { destruct (m_triangles m) as [|t ts]; [unfold surface in Hs; rewrite rsum_nil in Hs; lra|].
    exfalso. now apply (in_range_ne _ _ _ Hr). }
  rewrite Hc. cbn [obind].
  pose proof (box_ok r [p0] p0 p0 (tight_box_one p0)) as Hb. cbn [app] in Hb.
  destruct (fold_left box_step r (p0, p0)) as [lo hi].
  do 4 eexists. split; [reflexivity|]. cbn [m_points m_triangles m_diag m_center m_minBB m_maxBB].
  split; [split; [reflexivity|]; reflexivity|].
  split; [reflexivity|]. split; [reflexivity|]. split; [reflexivity|]. split; [reflexivity|].
  cbn [vx vy vz].
  split; [reflexivity|]. split; [reflexivity|]. split; [reflexivity|]. split; [exact Hb|].
  destruct Hb as ((Hx & _) & (Hy & _) & (Hz & _)).
  assert (K : forall f lo hi, (forall p, In p (p0 :: r) -> lo <= f p <= hi) ->
    lo <= surface_mean f (p0 :: r) (m_triangles m) <= hi).
  { clear - Hr Hs. intros f lo hi Hf. split.
    - pose proof (surface_mean_le (fun p => - f p) (p0 :: r) (m_triangles m) (- lo) Hr Hs) as H.
      assert (H' : surface_mean (fun p => - f p) (p0 :: r) (m_triangles m)
                   = - surface_mean f (p0 :: r) (m_triangles m)).
      { unfold surface_mean.
        rewrite (rsum_ext _ (fun t => -1 * (tri_area (p0 :: r) t * tri_mean f (p0 :: r) t))).
        - rewrite rsum_scal. field. lra.
        - intros [[i j] k] _. cbn [tri_mean tri_area]. field. }
      rewrite H' in H. assert (H2 : - surface_mean f (p0 :: r) (m_triangles m) <= - lo); [|lra].
      apply H. intros p Hp. specialize (Hf p Hp). lra.
    - apply surface_mean_le; [assumption..|]. intros p Hp. now apply Hf. }
  split; [now apply K|]. split; now apply K.
Qed.
Print Assumptions C141_centre.

(** If all points of the mesh are inside it, so is the centre. *)
Theorem C141_centre_inside (m m' : mesh R) c :
  in_range (m_points m) (m_triangles m) -> 0 < surface (m_points m) (m_triangles m) ->
  (forall q, In q (m_points m) -> is_inside m q = Ok true) ->
  compute_center sqrt m = Ok (m', Some c) -> is_inside m c = Ok true.
Proof.
  intros Hr Hs Hq Hc. apply (centre_inside m c Hr Hs Hq).
  unfold compute_center in Hc. rewrite centroid_ok in * by (assumption || lra). cbn [obind] in Hc.
  destruct (m_points m) as [|p0 r] eqn:E.
  - destruct (m_triangles m) as [|t ts]; [unfold surface in Hs; rewrite rsum_nil in Hs; lra|].
    exfalso. now apply (in_range_ne _ _ _ Hr).
  - destruct (fold_left box_step r (p0, p0)). injection Hc as _ <-. reflexivity.
Qed.
Print Assumptions C141_centre_inside.

(** [ComputeDiagBB]: the diagonal of the box around the points; no two points are further
    apart. *)
Theorem C141_diagonal (m : mesh R) :
  m_points m <> [] ->
  exists m' d lo hi,
    compute_diag sqrt m = (m', d) /\ m_diag m' = d /\
    made_of m' (m_points m) (m_triangles m) /\
    m_minBB m' = m_minBB m /\ m_maxBB m' = m_maxBB m /\ m_center m' = m_center m /\
    tight_box (m_points m) lo hi /\ d = dist hi lo /\
    (forall p q, In p (m_points m) -> In q (m_points m) -> dist p q <= d).
Proof.
  intros Hne. unfold compute_diag. destruct (m_points m) as [|p0 r] eqn:E; [easy|].
  pose proof (diag_box_ok r [p0] p0 p0 (tight_box_one p0)) as Hb. cbn [app] in Hb.
  destruct (fold_left diag_step r (p0, p0)) as [lo hi].
  do 2 eexists. exists lo, hi. split; [reflexivity|].
  cbn [m_points m_triangles m_diag m_center m_minBB m_maxBB].
  split; [reflexivity|]. split; [split; reflexivity|].
  split; [reflexivity|]. split; [reflexivity|]. split; [reflexivity|]. split; [exact Hb|].
  split; [reflexivity|]. intros p q Hp Hq. now apply (tight_box_dist (p0 :: r)).
Qed.
Print Assumptions C141_diagonal.

(** ** Examples: the unit tetrahedron *)
Definition ex_pts : list pt := [MV 0 0 0; MV 1 0 0; MV 0 1 0; MV 0 0 1].
Definition ex_mesh : mesh R := Mesh ex_pts tetra_tris None None None 1.

Example C141_ex_closed : in_range ex_pts tetra_tris /\ closed tetra_tris.
Proof. split; [apply tetra_range|apply tetra_closed]. Qed.

Lemma ex_made : made_of ex_mesh ex_pts tetra_tris.
Proof. split; reflexivity. Qed.

Example C141_ex_volume : compute_volume ex_mesh = Ok (1 / 6).
Proof.
  rewrite (tetra_volume ex_mesh _ _ _ _ ex_made). f_equal. unfold det3, minus; cbn. field.
Qed.

Example C141_ex_inside :
  is_inside ex_mesh (MV (1/4) (1/4) (1/4)) = Ok true /\ is_inside ex_mesh (MV 1 1 1) = Ok false.
Proof.
  split.
  - apply inside_iff; [apply tetra_range|discriminate|]. cbn [m_points m_triangles ex_mesh].
    intros t [<-|[<-|[<-|[<-|[]]]]];
      cbv [above ex_pts nth_pt Z.to_nat Pos.to_nat Pos.iter_op nth Nat.add];
      unfold det3, minus; cbn [vx vy vz]; lra.
  - destruct (inside_value ex_mesh (MV 1 1 1) (tetra_range _ _ _ _) ltac:(discriminate)) as (b & E & Hb).
    rewrite E. destruct b; [|reflexivity]. exfalso.
    pose proof (proj1 Hb eq_refl (1, 2, 3)%Z ltac:(cbn; tauto)) as H.
    cbv [above ex_mesh m_points ex_pts nth_pt Z.to_nat Pos.to_nat Pos.iter_op nth Nat.add] in H.
    unfold det3, minus in H; cbn [vx vy vz] in H. lra.
Qed.

(** A box twice as long, and shifted. *)
Example C141_ex_affine :
  compute_volume (Mesh (map (affine (MV 2 0 0) (MV 0 1 0) (MV 0 0 1) (MV 5 5 5)) ex_pts)
                       tetra_tris None None None 1) = Ok (1 / 3).
Proof.
  destruct (C141_volume_affine ex_mesh
    (Mesh (map (affine (MV 2 0 0) (MV 0 1 0) (MV 0 0 1) (MV 5 5 5)) ex_pts) tetra_tris None None None 1)
    (MV 2 0 0) (MV 0 1 0) (MV 0 0 1) (MV 5 5 5)) as (v & E & E').
  - apply tetra_range.
  - split; reflexivity.
  - rewrite C141_ex_volume in E. injection E as <-. rewrite E'. f_equal. unfold det3; cbn. field.
Qed.

Lemma ex_surface : 0 < surface ex_pts tetra_tris.
Proof.
  unfold surface, tetra_tris. rewrite !rsum_cons, rsum_nil.
  pose proof (tri_area_pos ex_pts (0, 1, 3)%Z). pose proof (tri_area_pos ex_pts (0, 3, 2)%Z).
  pose proof (tri_area_pos ex_pts (1, 2, 3)%Z).
  assert (tri_area ex_pts (0, 2, 1)%Z = 1 / 2); [|lra].
  unfold tri_area, area, norm.
  cbv [ex_pts nth_pt Z.to_nat Pos.to_nat Pos.iter_op nth Nat.add].
  unfold cross, minus; cbn [vx vy vz].
  match goal with |- sqrt ?x / 2 = _ => replace x with 1 by ring end. rewrite sqrt_1. lra.
Qed.

Example C141_ex_centre :
  exists m' c, compute_center sqrt ex_mesh = Ok (m', Some c) /\ is_inside ex_mesh c = Ok true.
Proof.
  destruct (C141_centre ex_mesh (tetra_range _ _ _ _) ex_surface) as (m' & c & lo & hi & E & _).
  exists m', c. split; [exact E|].
  apply (C141_centre_inside ex_mesh m' c (tetra_range _ _ _ _) ex_surface); [|exact E].
  intros q Hq. apply (tetra_inside ex_mesh _ _ _ _ q ex_made).
  - unfold det3, minus; cbn [vx vy vz]. lra.
  - destruct Hq as [<-|[<-|[<-|[<-|[]]]]];
      [exists [1; 0; 0; 0]|exists [0; 1; 0; 0]|exists [0; 0; 1; 0]|exists [0; 0; 0; 1]];
      (split; [reflexivity|]; split; [intros w [<-|[<-|[<-|[<-|[]]]]]; lra|];
       split; [rewrite !rsum_cons, rsum_nil; lra|];
       unfold weighted; cbn [combine]; rewrite !rsum_cons, !rsum_nil; cbn [fst snd vx vy vz];
       f_equal; ring).
Qed.

Example C141_ex_clip :
  clip ex_mesh (1, 0, 0, 0) [] [] = (ex_pts, [MV 0 0 0; MV 0 1 0; MV 0 0 1]).
Proof.
  unfold clip. rewrite clip_ok. cbn [m_points ex_mesh ex_pts filter app].
  unfold side; cbn [vx vy vz].
  replace (1 * 0 + 0 * 0 + 0 * 0 + 0) with 0 by ring.
  replace (1 * 1 + 0 * 0 + 0 * 0 + 0) with 1 by ring.
  replace (1 * 0 + 0 * 1 + 0 * 0 + 0) with 0 by ring.
  replace (1 * 0 + 0 * 0 + 0 * 1 + 0) with 0 by ring.
  replace (Rleb 0 0) with true by (symmetry; apply Rleb_true; lra).
  replace (Rleb 0 1) with true by (symmetry; apply Rleb_true; lra).
  replace (Rleb 1 0) with false by (symmetry; apply Rleb_false; lra).
  reflexivity.
Qed.

Example C141_ex_diagonal : snd (compute_diag sqrt ex_mesh) = sqrt 3.
Proof.
  destruct (C141_diagonal ex_mesh ltac:(discriminate)) as (m' & d & lo & hi & -> & _ & _ & _ & _ & _ & Hb & -> & _).
  cbn [snd]. unfold dist, norm, minus; cbn [vx vy vz].
  assert (K : forall f l h, tight f ex_pts l h -> (forall p, In p ex_pts -> f p = 0 \/ f p = 1) ->
     (exists p, In p ex_pts /\ f p = 0) -> (exists p, In p ex_pts /\ f p = 1) -> h - l = 1).
  { intros f l h (Hr & (p1 & H1 & E1) & (p2 & H2 & E2)) Hv (p3 & H3 & E3) (p4 & H4 & E4).
    pose proof (Hr p3 H3). pose proof (Hr p4 H4).
    destruct (Hv p1 H1); destruct (Hv p2 H2); lra. }
  destruct Hb as (Hx & Hy & Hz).
  rewrite (K vx _ _ Hx), (K vy _ _ Hy), (K vz _ _ Hz).
  1: f_equal; ring.
  all: try (intros p [<-|[<-|[<-|[<-|[]]]]]; cbn; lra).
  all: try (exists (MV 0 0 0); split; [cbn; tauto|reflexivity]).
  - exists (MV 0 0 1); split; [cbn; tauto|reflexivity].
  - exists (MV 0 1 0); split; [cbn; tauto|reflexivity].
  - exists (MV 1 0 0); split; [cbn; tauto|reflexivity].
Qed.

(** ** What does not hold *)

(** For a mesh with a hole the volume depends on points that no triangle uses. *)
Theorem C141_open_refuted :
  exists (ps : list pt) (ts : list mtri) (q : pt) v v',
    in_range ps ts /\ compute_volume (Mesh ps ts None None None 1) = Ok v /\
    compute_volume (Mesh (ps ++ [q]) ts None None None 1) = Ok v' /\ v <> v'.
Proof.
  exists [MV 0 0 0; MV 1 0 0; MV 0 1 0], [(0, 1, 2)%Z], (MV 0 0 4), 0, (- 1 / 6).
  assert (Hr : forall l : list pt, (3 <= length l)%nat -> in_range l [(0, 1, 2)%Z]).
  { intros l Hl i j k [Hin|[]]. injection Hin as <- <- <-. unfold is_index. lia. }
  split; [apply Hr; cbn; lia|].
  split; [|split; [|lra]].
  - rewrite volume_value by (apply Hr; cbn; lia). f_equal. cbn [m_points m_triangles].
    rewrite rsum_cons, rsum_nil. unfold barycenter. rewrite bary_sum.
    rewrite !rsum_cons, !rsum_nil. unfold tri_det, nth_pt.
    cbv [Z.to_nat Pos.to_nat Pos.iter_op nth Nat.add]. unfold det3, minus, mv_div.
    cbn [vx vy vz nzero ndiv nofZ R_Num length Z.of_nat Pos.of_succ_nat Pos.succ]. field.
  - rewrite volume_value by (apply Hr; cbn; lia). f_equal. cbn [m_points m_triangles app].
    rewrite rsum_cons, rsum_nil. unfold barycenter. rewrite bary_sum.
    rewrite !rsum_cons, !rsum_nil. unfold tri_det, nth_pt.
    cbv [Z.to_nat Pos.to_nat Pos.iter_op nth Nat.add]. unfold det3, minus, mv_div.
    cbn [vx vy vz nzero ndiv nofZ R_Num length Z.of_nat Pos.of_succ_nat Pos.succ]. field.
Qed.
Print Assumptions C141_open_refuted.

(** A closed mesh of positive volume that is not convex: a corner of it is not inside. *)
Theorem C141_inside_refuted :
  exists (m : mesh R) v p,
    in_range (m_points m) (m_triangles m) /\ closed (m_triangles m) /\
    compute_volume m = Ok v /\ 0 < v /\ In p (m_points m) /\ is_inside m p = Ok false.
Proof.
  set (far := [MV 3 0 0; MV 4 0 0; MV 3 1 0; MV 3 0 1] : list pt).
  set (m := Mesh (ex_pts ++ far) (tetra_tris ++ map (shift 4) tetra_tris) None None None 1 : mesh R).
  set (mf := Mesh far tetra_tris None None None 1 : mesh R).
  assert (Hr : in_range (m_points m) (m_triangles m)).
  { apply (in_range_join ex_pts tetra_tris far tetra_tris); apply tetra_range. }
  destruct (C141_volume_join ex_mesh mf m) as (v & v' & E & E' & Ej);
    [apply tetra_range|apply tetra_closed|apply tetra_range|apply tetra_closed|split; reflexivity|].
  exists m, (v + v'), (MV 3 0 0).
  split; [exact Hr|]. split; [apply closed_join; apply tetra_closed|]. split; [exact Ej|].
  split.
  { rewrite (tetra_volume ex_mesh _ _ _ _ ex_made) in E. injection E as <-.
    rewrite (tetra_volume mf (MV 3 0 0) (MV 4 0 0) (MV 3 1 0) (MV 3 0 1)) in E' by (split; reflexivity).
    injection E' as <-. unfold det3, minus; cbn [vx vy vz]. lra. }
  split; [cbn; tauto|].
  destruct (inside_value m (MV 3 0 0) Hr ltac:(discriminate)) as (b & Eb & Hb).
  rewrite Eb. destruct b; [|reflexivity]. exfalso.
  pose proof (proj1 Hb eq_refl (1, 2, 3)%Z ltac:(cbn; tauto)) as H.
  cbv [above m m_points ex_pts far app nth_pt Z.to_nat Pos.to_nat Pos.iter_op nth Nat.add] in H.
  unfold det3, minus in H; cbn [vx vy vz] in H. lra.
Qed.
Print Assumptions C141_inside_refuted.

(** Without any surface (here: without triangles) the centre is not a number. *)
Theorem C141_centre_refuted :
  exists (m m' : mesh f64) c,
    m_points m <> [] /\
    compute_center (H := f64_Num) (SFsqrt 53 1024) m = Ok (m', Some c) /\
    vx c = S754_nan /\ vy c = S754_nan /\ vz c = S754_nan.
Proof.
  pose (p := MV (f64_ofZ 1) (f64_ofZ 2) (f64_ofZ 3)).
  exists (Mesh [p] [] None None None (f64_ofZ 1)).
  do 2 eexists. split; [discriminate|]. split; [vm_compute; reflexivity|].
  split; [reflexivity|]. split; reflexivity.
Qed.
Print Assumptions C141_centre_refuted.

(** Without points [ComputeCenter] returns a vector that nothing has written, and the diagonal
    is 0 while [GetDiagBB] goes on to say 1. *)
Theorem C141_empty_refuted :
  exists m : mesh R,
    m = mesh_new /\ compute_center sqrt m = Ok (m, None) /\
    snd (compute_diag sqrt m) = 0 /\ m_diag (fst (compute_diag sqrt m)) = 1.
Proof. exists mesh_new. split; [reflexivity|]. split; [reflexivity|]. split; reflexivity. Qed.
Print Assumptions C141_empty_refuted.
