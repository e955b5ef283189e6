(** * C151: the edges of the convex hull stay in circles around their vertices *)
From Coq Require Import List Arith Bool Lia.
From Verif Require Import Common HEdgeModel HEdgeSpec HEdgeProofs.
Import ListNotations.

(** [removeEdgePair] takes an edge and its reverse out of the circles of their vertices, keeps the order
    of the others, gives both edges back to the pool once, and leaves the other edges as they were. *)
Theorem C151_remove h f e v : whole h f -> In e (f v) ->
  exists h' r t, remove_edge_pair h e = Ok h' /\ rv h e = Some r /\ tg h e = Some t /\ In r (f t) /\
    whole h' (fun u => remove Nat.eq_dec r (remove Nat.eq_dec e (f u))) /\
    edges_of h' e = None /\ edges_of h' r = None /\
    (forall x, x <> e -> x <> r -> rv h' x = rv h x /\ tg h' x = tg h x).
Proof.
  intros W he. pose proof W as (_ & _ & _ & _ & c5). destruct (c5 v e he) as (r & t & k1 & k2 & k3 & k4 & _).
  destruct (remove_ok h f e v r t W he k1 k2) as (h' & a1 & a2 & a3 & a4 & a5). exists h', r, t.
  split; [exact a1|]. split; [exact k1|]. split; [exact k2|]. split; [exact k4|]. split; [exact a2|]. auto.
Qed.
Print Assumptions C151_remove.

(** The loop that takes a vertex out of the hull ends: no edge starts or ends at the vertex, the other
    edges keep their order and are as they were, and the stack gets the vertices it was connected to. *)
Theorem C151_vertex h f v : whole h f ->
  exists fuel h' ts g, remove_all fuel h v = Ok (h', ts) /\ whole h' g /\ v_edges h' v = None /\ g v = [] /\
    (forall u, u <> v -> g u = filter (fun x => match tg h x with Some w => negb (w =? v) | None => true end) (f u)) /\
    (forall u x, In x (g u) -> tg h' x <> Some v /\ rv h' x = rv h x /\ tg h' x = tg h x) /\
    (forall w, In w ts <-> exists e, In e (f v) /\ tg h e = Some w).
Proof.
  intros W. destruct (remove_all_ok (length (f v)) h f v W (le_n _)) as (h' & ts & g & a1 & a2 & a3 & a4 & a5 & a6 & a7).
  exists (length (f v)), h', ts, g. split; [exact a1|]. split; [exact a2|]. split; [exact a3|]. split; [exact a4|].
  split; [exact a5|]. split; [|exact a6]. intros u x hx. split; [|exact (a7 u x hx)].
  intros z. destruct a2 as (_ & _ & _ & _ & c5). destruct (c5 u x hx) as (r & t & _ & k2 & _ & k4 & _).
  assert (t = v) as -> by congruence. rewrite a4 in k4. destruct k4.
Qed.
Print Assumptions C151_vertex.

(** The hull of two points: one edge at each, every other vertex as before. *)
Theorem C151_pair h f e r v w : whole h f -> edges_of h e = None -> edges_of h r = None -> e <> r -> v <> w ->
  f v = [] -> f w = [] ->
  exists h', pair_hull h e r v w = Ok h' /\
    whole h' (fun u => if u =? v then [e] else if u =? w then [r] else f u) /\
    rv h' e = Some r /\ tg h' e = Some w /\
    (forall x, x <> e -> x <> r -> edges_of h' x = edges_of h x).
Proof. apply pair_ok. Qed.
Print Assumptions C151_pair.

(** No edges, and a path of three vertices with four edges. *)
Definition C151_empty : hull := Hull (fun _ => None) (fun _ => None).
Example C151_empty_whole : whole C151_empty (fun _ => []).
Proof.
  split; [intros v; exact I|]. split; [reflexivity|]. split; [intros v; constructor|]. split; [intros v w e []|intros v e []].
Qed.
Definition C151_path : hull :=
  Hull (fun x => match x with
                 | 0 => Some (E (Some 0) (Some 0) (Some 1) (Some 1))
                 | 1 => Some (E (Some 2) (Some 2) (Some 0) (Some 0))
                 | 2 => Some (E (Some 1) (Some 1) (Some 3) (Some 2))
                 | 3 => Some (E (Some 3) (Some 3) (Some 2) (Some 1))
                 | _ => None
                 end)
       (fun v => match v with 0 => Some 0 | 1 => Some 2 | 2 => Some 3 | _ => None end).
Definition C151_around (v : nat) : list nat := match v with 0 => [0] | 1 => [1; 2] | 2 => [3] | _ => [] end.
Example C151_path_whole : whole C151_path C151_around.
Proof.
  split; [|split; [|split; [|split]]].
  - intros [|[|[|v]]]; cbn; auto 10.
  - intros [|[|[|v]]]; cbn; auto 10.
  - intros [|[|[|v]]]; cbn; repeat constructor; cbn; intuition discriminate.
  - intros [|[|[|v]]] [|[|[|w]]] e; cbn; intuition (try lia); subst; discriminate.
  - intros [|[|[|v]]] e; cbn [C151_around In]; intros h.
    + destruct h as [<-|[]]. exists 1, 1. cbn. auto 10.
    + destruct h as [<-|[<-|[]]]; [exists 0, 0|exists 3, 2]; cbn; auto 10.
    + destruct h as [<-|[]]. exists 2, 1. cbn. auto 10.
    + destruct h.
Qed.
Example C151_path_middle : match remove_all 2 C151_path 1 with
  | Ok (h, ts) => ts = [2; 0] /\ map (v_edges h) [0; 1; 2] = [None; None; None]
  | _ => False
  end.
Proof. vm_compute. split; reflexivity. Qed.
