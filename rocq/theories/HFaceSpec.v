(** * What the faces should be *)
From Coq Require Import List Arith Bool ZArith.
From Verif Require Import Common HEdgeModel HCopyModel.
Import ListNotations.

(** The edges of the face of the edge [a] of the result: those [getNextEdgeOfFace] leads to. *)
Inductive on_face (st : copyst) (a : nat) : nat -> Prop :=
| on_start : on_face st a a
| on_next i j : on_face st a i -> next_edge_of_face st i = Some j -> on_face st a j.
