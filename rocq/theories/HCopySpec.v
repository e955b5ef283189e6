(** * What the result should be *)
From Coq Require Import List Arith Bool ZArith.
From Verif Require Import Common HEdgeModel HEdgeSpec HCopyModel.
Import ListNotations.

(** The edges of the result are those of the hull [h], whose edges are [f], at its vertices in the
    result: [c e] is the index of the edge [e]. *)
Definition copies (h : hull) (f : nat -> list nat) (st : copyst) (c : nat -> nat) : Prop :=
  (forall u e, In u (olds st) -> In e (f u) -> c e < osize st) /\
  (forall u e u' e', In u (olds st) -> In e (f u) -> In u' (olds st) -> In e' (f u') -> c e = c e' -> e = e') /\
  (forall i, i < osize st -> exists u e, In u (olds st) /\ In e (f u) /\ c e = i) /\
  (forall iu u e, nth_error (olds st) iu = Some u -> In e (f u) ->
     exists r t p q it, rv h e = Some r /\ tg h e = Some t /\ pv h e = Some p /\ pv h r = Some q /\
       nth_error (olds st) it = Some t /\
       source_vertex st (c e) = Some iu /\ target_vertex st (c e) = Some it /\
       reverse_edge st (c e) = Some (c r) /\ next_edge_of_vertex st (c e) = Some (c p) /\
       next_edge_of_face st (c e) = Some (c q)).
