(** * What sorting is *)
From Coq Require Import List Bool.
Import ListNotations.

(** a strict weak order, as for the sorting functions of the standard library *)
Definition strict_weak {T} (lt : T -> T -> bool) : Prop :=
  (forall x y, lt x y = true -> lt y x = false) /\
  (forall x y z, lt x y = false -> lt y z = false -> lt x z = false).

(** no element comes before one that it is greater than *)
Definition sorted {T} (lt : T -> T -> bool) (a : list T) : Prop :=
  forall l x m y r, a = l ++ x :: m ++ y :: r -> lt y x = false.
