(** * What the parts of the convex hull should be *)
From Coq Require Import List Arith Bool ZArith Sorted.
From Verif Require Import Common SortModel SplitModel.
Import ListNotations.
Local Open Scope Z_scope.

(** The vertices of the parts in order. *)
Fixpoint leaves (t : parts) : list nat :=
  match t with Empty => [] | One v _ => [v] | Two v w _ => [v; w] | Merge a b => leaves a ++ leaves b end.
(** The order by y, x and z, and the orders of the projection to the plane of x and y. *)
Definition before (p q : point32) : Prop := py p < py q \/ (py p = py q /\ (px p < px q \/ (px p = px q /\ pz p < pz q))).
Definition le_xy (p q : point32) : Prop := px p < px q \/ (px p = px q /\ py p <= py q).
Definition le_yx (p q : point32) : Prop := py p < py q \/ (py p = py q /\ px p <= px q).
Definition coords (p : point32) : Z * Z * Z := (px p, py p, pz p).
Definition idx_before (pts : list point32) (i j : nat) : Prop :=
  exists p q, nth_error pts i = Some p /\ nth_error pts j = Some q /\ before p q.
(** All coordinates are so small that differences do not overflow (C149). *)
Definition small (pts : list point32) : Prop := forall p, In p pts -> Z.abs (px p) < 2 ^ 30 /\ Z.abs (py p) < 2 ^ 30.
(** [x] has the extreme vertices of [vs], in the projection. *)
Definition extreme (pts : list point32) (vs : list nat) (x : extremes) : Prop :=
  In (min_xy x) vs /\ In (max_xy x) vs /\ In (min_yx x) vs /\ In (max_yx x) vs /\
  exists a b c d, nth_error pts (min_xy x) = Some a /\ nth_error pts (max_xy x) = Some b /\
    nth_error pts (min_yx x) = Some c /\ nth_error pts (max_yx x) = Some d /\
    forall i p, In i vs -> nth_error pts i = Some p -> le_xy a p /\ le_xy p b /\ le_yx c p /\ le_yx p d.
Fixpoint all_extreme (pts : list point32) (t : parts) : Prop :=
  match t with Empty => True | One v x => extreme pts [v] x | Two v w x => extreme pts [v; w] x | Merge a b => all_extreme pts a /\ all_extreme pts b end.
