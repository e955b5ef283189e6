(** * The integer grid of the bundled convex hull

    Model of [btConvexHullInternal::compute] as far as the integer points,
    /repo/trajopt_ext/vhacd/src/btConvexHullComputer.cpp lines 1809-1897, of [getCoordinates], 1944-1951
    (for a vertex that is one of the points: [xvalue] and so on, 363-365), and of the integer vectors
    [Point32], [Point64], 64-95, with what [merge], [findMaxAngle] and [getOrientation] compute from
    them, 1616-1619, 1283-1284, 1245-1248.  Simplified: the coordinates come as a list (no stride, no
    distinction of [float] and [double]), [index] is left out, and the fourth component of a vector
    too.  Converting a number to an [int32_t] that cannot hold it and overflow are undefined. *)
From Coq Require Import List ZArith Bool.
From Verif Require Import Common Num.
Import ListNotations.

Section Grid.
  Context {T : Type} `{Num T}.
  (** Conversion to an integer, towards zero. *)
  Variable trunc : T -> Z.
  Local Open Scope num_scope.

  (** [btVector3] *)
  Record gvec := GV { c0 : T; c1 : T; c2 : T }.
  Definition gmap2 (f : T -> T -> T) (a b : gvec) : gvec := GV (f (c0 a) (c0 b)) (f (c1 a) (c1 b)) (f (c2 a) (c2 b)).
  Definition gmap (f : T -> T) (a : gvec) : gvec := GV (f (c0 a)) (f (c1 a)) (f (c2 a)).
  (** [setMin], [setMax], btVector3.h lines 271-287, with btMinMax.h lines 41-57. *)
  Definition set_min (a b : gvec) : gvec := gmap2 (fun x y => if y <? x then y else x) a b.
  Definition set_max (a b : gvec) : gvec := gmap2 (fun x y => if x <? y then y else x) a b.
  (** [minAxis], [maxAxis], btVector3.h lines 189-199. *)
  Definition min_axis (v : gvec) : Z :=
    if c0 v <? c1 v then (if c0 v <? c2 v then 0%Z else 2%Z) else (if c1 v <? c2 v then 1%Z else 2%Z).
  Definition max_axis (v : gvec) : Z :=
    if c0 v <? c1 v then (if c1 v <? c2 v then 2%Z else 1%Z) else (if c0 v <? c2 v then 2%Z else 0%Z).
  (** [operator[]] read. *)
  Definition component (v : gvec) (i : Z) : outcome T :=
    match i with 0%Z => Ok (c0 v) | 1%Z => Ok (c1 v) | 2%Z => Ok (c2 v) | _ => Undef end.

  (** Lines 1811-1834: the corners of the box. *)
  Definition big : T := ndec 1 30.
  Definition corners_of (ps : list gvec) : gvec * gvec :=
    fold_left (fun mm p => (set_min (fst mm) p, set_max (snd mm) p)) ps
      (GV big big big, GV (- big) (- big) (- big)).

  (** The members [scaling], [center], [medAxis], [maxAxis], [minAxis], and the inverse of [scaling]. *)
  Record frame := Frame { scaling : gvec; inverse : gvec; center : gvec; amed : Z; amax : Z; amin : Z }.
  (** Lines 1836-1865. *)
  Definition frame_of (ps : list gvec) : frame :=
    let '(mn, mx) := corners_of ps in
    let s := gmap2 (fun a b => a - b) mx mn in
    let maxa := max_axis s in
    let mina := min_axis s in
    let mina := if (mina =? maxa)%Z then ((maxa + 1) mod 3)%Z else mina in
    let meda := (3 - maxa - mina)%Z in
    let s := gmap (fun a => a * (none_ / nofZ 10216)) s in
    let s := if negb ((meda + 1) mod 3 =? maxa)%Z then gmap (fun a => a * nofZ (-1)) s else s in
    let inv := gmap (fun a => if negb (a =? nzero) then none_ / a else a) s in
    Frame s inv (gmap (fun a => a * ndec 5 (-1)) (gmap2 (fun a b => a + b) mn mx)) meda maxa mina.

  (** [Point32] *)
  Record p32 := P32 { x32 : Z; y32 : Z; z32 : Z }.
  Definition i32 (z : Z) : outcome Z := if ((- 2 ^ 31 <=? z) && (z <? 2 ^ 31))%Z then Ok z else Undef.
  Definition i64 (z : Z) : outcome Z := if ((- 2 ^ 63 <=? z) && (z <? 2 ^ 63))%Z then Ok z else Undef.

  (** A point in the frame, lines 1877 and 1891, in the order of lines 1878-1880 and 1892-1894, and its integers. *)
  Definition place (f : frame) (p : gvec) : outcome gvec :=
    let q := gmap2 (fun a b => a * b) (gmap2 (fun a b => a - b) p (center f)) (inverse f) in
    obind (component q (amed f)) (fun x => obind (component q (amax f)) (fun y =>
      obind (component q (amin f)) (fun z => Ok (GV x y z)))).
  Definition to_point (f : frame) (p : gvec) : outcome p32 :=
    obind (place f p) (fun q => obind (i32 (trunc (c0 q))) (fun x => obind (i32 (trunc (c1 q))) (fun y =>
      obind (i32 (trunc (c2 q))) (fun z => Ok (P32 x y z))))).

  (** [getCoordinates]: the components of [p] are written one by one. *)
  Definition written (x y z : T) (f : frame) (i : Z) : outcome T :=
    if (i =? amin f)%Z then Ok z else if (i =? amax f)%Z then Ok y else if (i =? amed f)%Z then Ok x else Undef.
  Definition get_coordinates (f : frame) (v : p32) : outcome gvec :=
    let w := written (nofZ (x32 v)) (nofZ (y32 v)) (nofZ (z32 v)) f in
    obind (w 0%Z) (fun a => obind (w 1%Z) (fun b => obind (w 2%Z) (fun c =>
      Ok (gmap2 (fun u v => u + v) (gmap2 (fun u v => u * v) (GV a b c) (scaling f)) (center f))))).
End Grid.
Arguments gvec T : clear implicits.
Arguments frame T : clear implicits.

(** ** Integer vectors, lines 64-95 *)
Local Open Scope Z_scope.
Record p64 := P64 { x64 : Z; y64 : Z; z64 : Z }.
(** [a * b - c * d] and [a * b + c * d + e * f], each operation in the type of [rng]. *)
Definition cross1 (rng : Z -> outcome Z) (a b c d : Z) : outcome Z :=
  obind (rng (a * b)) (fun u => obind (rng (c * d)) (fun v => rng (u - v))).
Definition dot1 (rng : Z -> outcome Z) (a b c d e f : Z) : outcome Z :=
  obind (rng (a * b)) (fun u => obind (rng (c * d)) (fun v => obind (rng (u + v)) (fun w =>
    obind (rng (e * f)) (fun x => rng (w + x))))).
(** [operator-], line 94; [cross], 89 and 90; [dot], 92 and, of two [Point64], 73. *)
Definition psub (a b : p32) : outcome p32 :=
  obind (i32 (x32 a - x32 b)) (fun x => obind (i32 (y32 a - y32 b)) (fun y =>
    obind (i32 (z32 a - z32 b)) (fun z => Ok (P32 x y z)))).
Definition cross32 (a b : p32) : outcome p64 :=
  obind (cross1 i32 (y32 a) (z32 b) (z32 a) (y32 b)) (fun x =>
  obind (cross1 i32 (z32 a) (x32 b) (x32 a) (z32 b)) (fun y =>
  obind (cross1 i32 (x32 a) (y32 b) (y32 a) (x32 b)) (fun z => Ok (P64 x y z)))).
Definition cross64 (a : p32) (b : p64) : outcome p64 :=
  obind (cross1 i64 (y32 a) (z64 b) (z32 a) (y64 b)) (fun x =>
  obind (cross1 i64 (z32 a) (x64 b) (x32 a) (z64 b)) (fun y =>
  obind (cross1 i64 (x32 a) (y64 b) (y32 a) (x64 b)) (fun z => Ok (P64 x y z)))).
Definition dot32_64 (a : p32) (b : p64) : outcome Z := dot1 i64 (x32 a) (x64 b) (y32 a) (y64 b) (z32 a) (z64 b).
Definition dot64 (a b : p64) : outcome Z := dot1 i64 (x64 a) (x64 b) (y64 a) (y64 b) (z64 a) (z64 b).

(** The numerator and denominator of the cotangent of an edge from [start] to [target], for the
    bridge from [a] to [b] and the point before, lines 1616-1619 and 1283-1284. *)
Definition cotangent (prev a b start target : p32) : outcome (Z * Z) :=
  obind (psub b a) (fun s => obind (psub prev a) (fun r =>
    obind (cross32 r s) (fun rxs => obind (cross64 s rxs) (fun sxrxs =>
      obind (psub target start) (fun t =>
        obind (dot32_64 t sxrxs) (fun n => obind (dot32_64 t rxs) (fun d => Ok (n, d)))))))).
(** The number whose sign gives the orientation of the edges from [o] to [p] and from [o] to [n],
    seen along [s] and [t], lines 1245-1248. *)
Definition orientation (s t p o n : p32) : outcome Z :=
  obind (cross32 t s) (fun k => obind (psub p o) (fun u => obind (psub n o) (fun v =>
    obind (cross32 u v) (fun m => dot64 k m)))).
