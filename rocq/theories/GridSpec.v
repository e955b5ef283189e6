(** * The integer grid: what it should be *)
From Coq Require Import List ZArith Reals.
From Verif Require Import Common Num GridModel.
Import ListNotations.

(** Conversion of a real number to an integer, towards zero. *)
Definition truncR (r : R) : Z := if Rltb r 0 then (- Int_part (- r))%Z else Int_part r.

Local Open Scope R_scope.
(** Component [i] of a vector, and the determinant of three vectors from [a]. *)
Definition co (v : gvec R) (i : Z) : R := if Z.eqb i 0 then c0 v else if Z.eqb i 1 then c1 v else c2 v.
Definition det (a b c d : gvec R) : R :=
  let m v i := co v i - co a i in
  m b 0%Z * (m c 1%Z * m d 2%Z - m c 2%Z * m d 1%Z) - m b 1%Z * (m c 0%Z * m d 2%Z - m c 2%Z * m d 0%Z)
  + m b 2%Z * (m c 0%Z * m d 1%Z - m c 1%Z * m d 0%Z).
(** The extent of a set of points along an axis: the least number that no two of them exceed. *)
Definition extent (ps : list (gvec R)) (i : Z) (e : R) : Prop :=
  (forall p q, In p ps -> In q ps -> co p i - co q i <= e) /\ exists p q, In p ps /\ In q ps /\ co p i - co q i = e.
Definition is_axis (i : Z) : Prop := i = 0%Z \/ i = 1%Z \/ i = 2%Z.
Definition moderate (ps : list (gvec R)) : Prop := forall p i, In p ps -> is_axis i -> - 10 ^ 30 <= co p i <= 10 ^ 30.

Local Open Scope Z_scope.
Definition in_box (n : Z) (p : p32) : Prop := - n <= x32 p <= n /\ - n <= y32 p <= n /\ - n <= z32 p <= n.
(** Vectors of integers, without bounds. *)
Definition zv : Type := Z * Z * Z.
Definition zof (p : p32) : zv := (x32 p, y32 p, z32 p).
Definition zminus (a b : zv) : zv := let '(x, y, z) := a in let '(u, v, w) := b in (x - u, y - v, z - w).
Definition zcross (a b : zv) : zv :=
  let '(x, y, z) := a in let '(u, v, w) := b in (y * w - z * v, z * u - x * w, x * v - y * u).
Definition zdot (a b : zv) : Z := let '(x, y, z) := a in let '(u, v, w) := b in x * u + y * v + z * w.
