(** * C154: the result of the convex hull is a copy of the hull *)
From Coq Require Import List Arith Bool ZArith Lia.
From Verif Require Import Common HEdgeModel HEdgeSpec HEdgeProofs HEdgeProps HPartSpec HPartProofs HPartProps HCopyModel HCopySpec HCopyProofs.
Import ListNotations.

(** For every hull of finitely many vertices with its edges in order, the copying ends.  The vertices of
    the result are those edges lead to from the given one, each once; the edges of the result are the
    edges of the hull at those vertices, each once, and the functions of the result give what the hull
    has: the source, the target, the reverse, the edge before it around the vertex (the lists of the hull
    and of the result run in opposite directions), and the next one of the face. *)
Theorem C154_copy h f v0 n : whole h f -> (forall u, n <= u -> f u = []) ->
  exists fuel inner st c, copy_hull fuel inner h v0 = Ok st /\
    NoDup (olds st) /\ nth_error (olds st) 0 = Some v0 /\ (forall u, In u (olds st) <-> reach h f [v0] u) /\
    copies h f st c.
Proof.
  intros W hn. destruct (start_inv h f v0) as (I0 & z0).
  destruct (loop_ok h f v0 n W hn (S (edges n f)) (le_n _) (S n) _ 0 I0) as (st & e & I & G & D); [intros i u x hi; lia|lia|].
  exists (S n), (S (edges n f)), st, (at_ st). split; [exact e|]. pose proof I as (A & B & _). pose proof (proj1 G v0 0 z0) as z.
  split; [|split; [now apply A|split; [|exact (copies_ok h f v0 st W I D)]]].
  - apply NoDup_nth_error. intros i j hi q. destruct (nth_error (olds st) i) as [v|] eqn:ei; [|apply nth_error_None in ei; lia].
    symmetry in q. apply A in ei, q. congruence.
  - intros u. split; [apply B|]. intros hu. destruct (closed_ok h f v0 st I D) with (u := u) as (i & hi); [congruence|exact hu|].
    apply A in hi. now apply nth_error_In in hi.
Qed.
Print Assumptions C154_copy.

(** Following the edges of a vertex of the result leads through its edges only, and back. *)
Corollary C154_vertex_edges h f v0 n : whole h f -> (forall u, n <= u -> f u = []) ->
  exists fuel inner st, copy_hull fuel inner h v0 = Ok st /\
    forall i, i < osize st -> exists j, next_edge_of_vertex st i = Some j /\ j < osize st /\
      source_vertex st j = source_vertex st i /\ source_vertex st i <> None /\
      exists r, reverse_edge st i = Some r /\ reverse_edge st r = Some i /\ r <> i /\ target_vertex st i = source_vertex st r.
Proof.
  intros W hn. destruct (C154_copy h f v0 n W hn) as (fuel & inner & st & c & e & _ & _ & R & c1 & c2 & c3 & c4).
  exists fuel, inner, st. split; [exact e|]. intros i hi. destruct (c3 i hi) as (u & x & hu & hx & <-).
  pose proof (In_nth_error _ _ hu) as (iu & hiu). pose proof W as (w1 & _ & _ & _ & w5).
  destruct (c4 iu u x hiu hx) as (r & t & p & q & it & k1 & k2 & k3 & k4 & k5 & k6 & k7 & k8 & k9 & _).
  destruct (w5 u x hx) as (r' & t' & m1 & m2 & m3 & m4 & m5 & m6). assert (r' = r) as -> by congruence. assert (t' = t) as -> by congruence.
  assert (hp : In p (f u)) by exact (circle_prev h _ x p (w1 u) hx k3).
  destruct (c4 iu u p hiu hp) as (_ & _ & _ & _ & _ & _ & _ & _ & _ & _ & n6 & _).
  destruct (c4 it t r k5 m4) as (x' & _ & _ & _ & _ & o1 & _ & _ & _ & _ & o6 & _ & o8 & _). assert (x' = x) as -> by congruence.
  exists (c p). split; [exact k9|]. split; [exact (c1 u p hu hp)|]. split; [congruence|]. split; [congruence|].
  exists (c r). split; [exact k8|]. split; [exact o8|]. split; [|congruence].
  intros z. apply m3. exact (c2 t r u x (nth_error_In _ _ k5) m4 hu hx z).
Qed.
Print Assumptions C154_vertex_edges.

(** A hull of two parts: the result has the part of the given vertex. *)
Example C154_two : match copy_hull 9 9 C153_two 1 with
  | Ok st => olds st = [1; 2; 0] /\ osize st = 4 /\ map (next_edge_of_vertex st) [0; 1; 2; 3] = [Some 2; Some 1; Some 0; Some 3] /\
             map (target_vertex st) [0; 1; 2; 3] = [Some 1; Some 0; Some 2; Some 0]
  | _ => False
  end.
Proof. vm_compute. auto. Qed.
