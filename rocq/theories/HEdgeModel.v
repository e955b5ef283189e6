(** * The edges of the bundled convex hull

    Model of the pairs of edges of /repo/trajopt_ext/vhacd/src/btConvexHullComputer.cpp: [Edge], lines
    390-414; [newEdgePair], lines 848-868; [removeEdgePair], lines 631-665; the hull of two points, lines
    1121-1127; and the loop that takes all edges of a vertex away, lines 2479-2488.  Undefined: reading
    or writing through a null pointer or through an edge that was not given out or has been freed, and a
    failed [btAssert].  Simplified: of an edge only [next], [prev], [reverse] and [target] (not [face]
    and [copy]), of a vertex only [edges]; vertices always exist; the numbers of edge pairs in use are
    left out; which objects the pool gives is an argument (C150 says what the pool guarantees). *)
From Coq Require Import List Arith Bool.
From Verif Require Import Common.
Import ListNotations.

(** Lines 393-396.  A member not yet written is [None], like a null pointer. *)
Record edge := E { e_next : option nat; e_prev : option nat; e_reverse : option nat; e_target : option nat }.
(** All edges given out, and the members [edges] of the vertices (line 342). *)
Record hull := Hull { edges_of : nat -> option edge; v_edges : nat -> option nat }.

Definition set_edge (h : hull) (e : nat) (v : option edge) : hull :=
  Hull (fun x => if x =? e then v else edges_of h x) (v_edges h).
Definition set_vertex (h : hull) (v : nat) (e : option nat) : hull :=
  Hull (edges_of h) (fun x => if x =? v then e else v_edges h x).
Definition get (h : hull) (e : nat) : outcome edge := match edges_of h e with Some x => Ok x | None => Undef end.
Definition deref (o : option nat) : outcome nat := match o with Some x => Ok x | None => Undef end.
Definition upd (h : hull) (e : nat) (f : edge -> edge) : outcome hull :=
  obind (get h e) (fun x => Ok (set_edge h e (Some (f x)))).
Definition with_next (n : option nat) (x : edge) : edge := E n (e_prev x) (e_reverse x) (e_target x).
Definition with_prev (p : option nat) (x : edge) : edge := E (e_next x) p (e_reverse x) (e_target x).

(** [newEdgePair], lines 848-868: [e] and [r] are what the pool gave. *)
Definition new_edge_pair (h : hull) (e r from to : nat) : hull :=
  set_edge (set_edge h e (Some (E None None (Some r) (Some to)))) r (Some (E None None (Some e) (Some from))).

(** [link], lines 409-414. *)
Definition link (h : hull) (e n : nat) : outcome hull :=
  obind (get h e) (fun x => obind (deref (e_reverse x)) (fun r => obind (get h r) (fun xr =>
  obind (get h n) (fun y => obind (deref (e_reverse y)) (fun s => obind (get h s) (fun ys =>
  match e_target xr, e_target ys with
  | Some a, Some b =>
      if a =? b then obind (upd h e (with_next (Some n))) (fun h1 => upd h1 n (with_prev (Some e))) else Undef
  | None, None => obind (upd h e (with_next (Some n))) (fun h1 => upd h1 n (with_prev (Some e)))
  | _, _ => Undef
  end)))))).

(** The hull of two points, lines 1121-1127. *)
Definition pair_hull (h : hull) (e r v w : nat) : outcome hull :=
  obind (link (new_edge_pair h e r v w) e e) (fun h1 =>
  let h2 := set_vertex h1 v (Some e) in
  obind (get h2 e) (fun x => obind (deref (e_reverse x)) (fun e' =>
  obind (link h2 e' e') (fun h3 => Ok (set_vertex h3 w (Some e')))))).

(** One half of [removeEdgePair], lines 638-647 and 649-660: the edge [e], which starts at [v]. *)
Definition unlink (h : hull) (e v : nat) : outcome hull :=
  obind (get h e) (fun x => obind (deref (e_next x)) (fun n =>
  if n =? e then Ok (set_vertex h v None)
  else
    obind (upd h n (with_prev (e_prev x))) (fun h1 =>
    obind (get h1 e) (fun x1 => obind (deref (e_prev x1)) (fun p =>
    obind (upd h1 p (with_next (Some n))) (fun h2 => Ok (set_vertex h2 v (Some n)))))))).
(** Freeing an edge, lines 662-663 and 599-604. *)
Definition free_edge (h : hull) (e : nat) : outcome hull := obind (get h e) (fun _ => Ok (set_edge h e None)).
(** [removeEdgePair], lines 631-665. *)
Definition remove_edge_pair (h : hull) (e : nat) : outcome hull :=
  obind (get h e) (fun x => obind (deref (e_reverse x)) (fun r => obind (get h r) (fun xr =>
  obind (deref (e_target x)) (fun t => obind (deref (e_target xr)) (fun v =>
  obind (unlink h e v) (fun h1 => obind (unlink h1 r t) (fun h2 =>
  obind (free_edge h2 e) (fun h3 => free_edge h3 r)))))))).

(** The loop of lines 2479-2488: the targets pushed on the stack, and the hull. *)
Fixpoint remove_all (fuel : nat) (h : hull) (v : nat) : outcome (hull * list nat) :=
  match v_edges h v with
  | None => Ok (h, [])
  | Some e =>
      match fuel with
      | 0 => NoFuel
      | S f =>
          obind (get h e) (fun x => obind (deref (e_target x)) (fun t =>
          obind (remove_edge_pair h e) (fun h1 =>
          obind (remove_all f h1 v) (fun '(h2, ts) => Ok (h2, t :: ts)))))
      end
  end.
