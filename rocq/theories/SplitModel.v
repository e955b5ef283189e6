(** * How the bundled convex hull divides its points

    Model of [btConvexHullInternal::computeInternal], /repo/trajopt_ext/vhacd/src/btConvexHullComputer.cpp
    lines 1054-1171, without [merge] but for the extreme vertices it leaves: the hulls of at most two points it makes and in which order they are
    merged; and of the loop that makes the vertices, lines 1900-1910.  Undefined: an index outside the
    array of vertices, overflow of a difference, and a failed [btAssert].  Simplified: a vertex is its
    place in the array [originalVertices] ([v + 1] on line 1069 is the next one: [C156_vertices]); indices
    do not overflow; the edges of a hull of two points are in [HEdgeModel]. *)
From Coq Require Import List Arith Bool ZArith.
From Verif Require Import Common SortModel FreeModel.
Import ListNotations.
Local Open Scope nat_scope.

(** [IntermediateHull], lines 506-516. *)
Record extremes := Ext { min_xy : nat; max_xy : nat; min_yx : nat; max_yx : nat }.
(** What is merged: no points, a hull of one or of two vertices, or two hulls. *)
Inductive parts := Empty | One (v : nat) (x : extremes) | Two (v w : nat) (x : extremes) | Merge (a b : parts).

Definition at_pt (pts : list point32) (i : nat) : outcome point32 := match nth_error pts i with Some p => Ok p | None => Undef end.
(** [operator==], line 87. *)
Definition same_pt (p q : point32) : bool := ((px p =? px q) && (py p =? py q) && (pz p =? pz q))%Z.
Definition diff32 (a b : Z) : outcome Z := let d := (a - b)%Z in if ((- 2 ^ 31 <=? d) && (d <? 2 ^ 31))%Z then Ok d else Undef.

(** Lines 1133-1144. *)
Definition one_hull (v : nat) : parts := One v (Ext v v v v).
(** Lines 1070-1119 for [v] and [w] that differ. *)
Definition two_hull (pts : list point32) (v w : nat) (p q : point32) : outcome parts :=
  obind (diff32 (px p) (px q)) (fun dx => obind (diff32 (py p) (py q)) (fun dy =>
  if ((dx =? 0) && (dy =? 0))%Z then
    let '(v, w, p, q) := if (pz q <? pz p)%Z then (w, v, q, p) else (v, w, p, q) in
    if (pz p <? pz q)%Z then Ok (Two v w (Ext v v v v)) else Undef
  else
    let '(lo, hi) := if ((dx <? 0) || ((dx =? 0) && (dy <? 0)))%Z then (v, w) else (w, v) in
    let '(lo', hi') := if ((dy <? 0) || ((dy =? 0) && (dx <? 0)))%Z then (v, w) else (w, v) in
    Ok (Two v w (Ext lo hi lo' hi')))).
(** The loop of lines 1153-1156, [d] places before [end]. *)
Fixpoint skip (pts : list point32) (p : point32) (s d : nat) : outcome nat :=
  match d with
  | 0 => Ok s
  | S d' => obind (at_pt pts s) (fun q => if same_pt q p then skip pts p (s + 1) d' else Ok s)
  end.
(** Lines 1054-1171. *)
Fixpoint compute_parts (fuel : nat) (pts : list point32) (start stop : nat) : outcome parts :=
  match fuel with
  | 0 => NoFuel
  | S fuel' =>
      match stop - start with
      | 0 => Ok Empty
      | 1 => obind (at_pt pts start) (fun _ => Ok (one_hull start))
      | 2 => obind (at_pt pts start) (fun p => obind (at_pt pts (start + 1)) (fun q =>
               if same_pt p q then Ok (one_hull start) else two_hull pts start (start + 1) p q))
      | n => let split0 := start + n / 2 in
             obind (at_pt pts (split0 - 1)) (fun p => obind (skip pts p split0 (stop - split0)) (fun split1 =>
             obind (compute_parts fuel' pts start split0) (fun a =>
             obind (compute_parts fuel' pts split1 stop) (fun b => Ok (Merge a b)))))
      end
  end.

(** The extreme vertices of two hulls merged, end of [mergeProjection], lines 1037-1046; without the case that
    their nearest vertices are the same in the projection, lines 873-913. *)
Definition merge_extremes (pts : list point32) (a b : extremes) : outcome extremes :=
  obind (at_pt pts (min_xy a)) (fun p0 => obind (at_pt pts (min_xy b)) (fun p1 =>
  obind (at_pt pts (max_xy a)) (fun q0 => obind (at_pt pts (max_xy b)) (fun q1 =>
  Ok (Ext (if (px p1 <? px p0)%Z then min_xy b else min_xy a) (if (px q0 <=? px q1)%Z then max_xy b else max_xy a) (min_yx a) (max_yx b)))))).

(** Lines 1900-1910: [n] objects of the pool. *)
Fixpoint new_vertices (p : pool) (n : nat) : outcome (pool * list obj) :=
  match n with
  | 0 => Ok (p, [])
  | S n' => obind (new_object p) (fun '(p1, o) => obind (new_vertices p1 n') (fun '(p2, os) => Ok (p2, o :: os)))
  end.
Definition original_vertices (count : nat) : outcome (list obj) :=
  obind (new_vertices (set_array_size (reset pool_new) count) count) (fun '(_, os) => Ok os).
