(** * The edge of the greatest angle in the bundled convex hull

    Model of [btConvexHullInternal::findMaxAngle],
    /repo/trajopt_ext/vhacd/src/btConvexHullComputer.cpp lines 1264-1319.  Undefined: what [HEdgeModel] and
    [WideModel] say, and the failed [btAssert] of line 1291.  Simplified: of an edge, whether its [copy] is above
    [mergeStamp], the two products of line 1284 (C149 has their arithmetic), the sign that the assertion
    wants and the answer of [getOrientation] are arguments. *)
From Coq Require Import List Arith Bool ZArith.
From Verif Require Import Common WideModel HEdgeModel.
Import ListNotations.

Section Angle.
  Variable marked : nat -> bool.        (* e->copy > mergeStamp, line 1281 *)
  Variable cot : nat -> Z * Z.          (* t.dot(sxrxs) and t.dot(rxs), line 1284 *)
  Variable opposite : nat -> bool.      (* the assertion of line 1291 *)
  Variable turn : nat -> nat -> bool.   (* ccw == (getOrientation(minEdge, e, s, t) == COUNTER_CLOCKWISE), line 1306 *)

  (** [isNaN], line 246. *)
  Definition is_nan (a : rat64) : bool := ((sg64 a =? 0) && (d64 a =? 0))%Z.
  (** Lines 1281-1314 for one edge; [best] is [minEdge] with [minCot]. *)
  Definition angle_step (best : option (nat * rat64)) (e : nat) : outcome (option (nat * rat64)) :=
    if marked e then
      obind (rat64_new (fst (cot e)) (snd (cot e))) (fun a =>
      if is_nan a then (if opposite e then Ok best else Undef) else
      match best with
      | None => Ok (Some (e, a))
      | Some (m, b) =>
          let c := rat64_compare a b in
          if (c <? 0)%Z then Ok (Some (e, a)) else if (c =? 0)%Z && turn m e then Ok (Some (e, b)) else Ok best
      end)
    else Ok best.
  (** Lines 1277-1317. *)
  Fixpoint angle_loop (fuel : nat) (h : hull) (first e : nat) (best : option (nat * rat64)) : outcome (option (nat * rat64)) :=
    match fuel with
    | 0 => NoFuel
    | S fuel' =>
        obind (angle_step best e) (fun best1 =>
        obind (get h e) (fun x => obind (deref (e_next x)) (fun n =>
          if n =? first then Ok best1 else angle_loop fuel' h first n best1)))
    end.
  Definition find_max_angle (fuel : nat) (h : hull) (v : nat) : outcome (option (nat * rat64)) :=
    match v_edges h v with None => Ok None | Some first => angle_loop fuel h first first None end.
End Angle.
