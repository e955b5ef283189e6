(** * What the edges of the convex hull should look like *)
From Coq Require Import List Arith Bool.
From Verif Require Import Common HEdgeModel.
Import ListNotations.

Definition nx (h : hull) (e : nat) : option nat := match edges_of h e with Some x => e_next x | None => None end.
Definition pv (h : hull) (e : nat) : option nat := match edges_of h e with Some x => e_prev x | None => None end.
Definition tg (h : hull) (e : nat) : option nat := match edges_of h e with Some x => e_target x | None => None end.
Definition rv (h : hull) (e : nat) : option nat := match edges_of h e with Some x => e_reverse x | None => None end.

(** From [a] along [next] through [l] to [b], and back along [prev]. *)
Fixpoint walk (h : hull) (a : nat) (l : list nat) (b : nat) : Prop :=
  match l with
  | [] => nx h a = Some b /\ pv h b = Some a
  | c :: l' => nx h a = Some c /\ pv h c = Some a /\ walk h c l' b
  end.
(** The edges [l] in a circle. *)
Definition circle (h : hull) (l : list nat) : Prop := match l with [] => True | x :: l' => walk h x l' x end.

(** [f v] are the edges that start at the vertex [v], in the order around it. *)
Definition whole (h : hull) (f : nat -> list nat) : Prop :=
  (forall v, circle h (f v)) /\
  (forall v, match v_edges h v with None => f v = [] | Some e => In e (f v) end) /\
  (forall v, NoDup (f v)) /\
  (forall v w e, In e (f v) -> In e (f w) -> v = w) /\
  (forall v e, In e (f v) -> exists r t, rv h e = Some r /\ tg h e = Some t /\ r <> e /\
                                         In r (f t) /\ rv h r = Some e /\ tg h r = Some v).
