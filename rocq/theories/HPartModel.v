(** * Taking a part out of the bundled convex hull

    Model of the end of [shiftFace], /repo/trajopt_ext/vhacd/src/btConvexHullComputer.cpp lines 2460-2495:
    the stack holds groups, each a vertex that is kept, vertices to remove, and null; removing the edges
    of a vertex pushes the vertices it was connected to as a new group for the same kept vertex.  The
    stack here is what is left from [pos] on.  The two loops over [pos] are one: a group is only begun
    when those before it are complete.  Undefined: reading beyond the stack, and a null vertex where one
    is kept.  Simplified: the faces ([receiveNearbyFaces], line 2478) are left out, see C152, and what
    [HEdgeModel] says. *)
From Coq Require Import List Arith Bool.
From Verif Require Import Common HEdgeModel.
Import ListNotations.

(** One group, lines 2467-2493: the hull, what is left of the stack, and what has been pushed. *)
Fixpoint group (inner : nat) (h : hull) (kept : nat) (q : list (option nat)) (deeper : bool) (pushed : list (option nat)) :
  outcome (hull * list (option nat) * list (option nat)) :=
  match q with
  | [] => Undef
  | None :: q' => Ok (h, q', if deeper then pushed ++ [None] else pushed)
  | Some w :: q' =>
      obind (remove_all inner h w) (fun '(h1, ts) =>
        match ts with
        | [] => group inner h1 kept q' deeper pushed
        | _ => group inner h1 kept q' true (pushed ++ (if deeper then [] else [Some kept]) ++ map Some ts)
        end)
  end.
(** The loops of lines 2461-2495. *)
Fixpoint remove_part (fuel inner : nat) (h : hull) (q : list (option nat)) : outcome hull :=
  match q with
  | [] => Ok h
  | None :: _ => Undef
  | Some kept :: q1 =>
      match fuel with
      | 0 => NoFuel
      | S fuel' => obind (group inner h kept q1 false []) (fun '(h1, q2, pushed) => remove_part fuel' inner h1 (q2 ++ pushed))
      end
  end.
