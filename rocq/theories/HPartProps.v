(** * C153: taking a part out of the convex hull removes what is connected to it and nothing else *)
From Coq Require Import List Arith Bool Lia.
From Verif Require Import Common HEdgeModel HEdgeSpec HEdgeProofs HEdgeProps HPartModel HPartSpec HPartProofs.
Import ListNotations.

(** The loops at the end of [shiftFace] end, for every hull of finitely many vertices and every stack of
    groups: the hull is left in order, the vertices on the stack and all those edges lead to from them
    have no edges, and every other vertex has the edges it had, in the order it had them. *)
Theorem C153_part h f gs n : whole h f -> (forall u, n <= u -> f u = []) ->
  exists fuel inner h' g, remove_part fuel inner h (stack_of gs) = Ok h' /\ whole h' g /\
    (forall u, reach h f (flat_map snd gs) u -> g u = [] /\ v_edges h' u = None) /\
    (forall u, ~ reach h f (flat_map snd gs) u -> g u = f u) /\
    (forall u e, In e (g u) -> tg h' e = tg h e).
Proof.
  intros W hn.
  destruct (part_ok h f (flat_map snd gs) n hn (edges n f) (length gs + edges n f) gs h f [] (flat_map snd gs)
              (start_ok h f (flat_map snd gs) W)) as (h2 & f2 & ps & e & P); try lia; [reflexivity|].
  exists (length gs + edges n f), (edges n f), h2, f2. split; [exact e|]. pose proof P as (W2 & _ & a3 & _).
  destruct (end_ok h f (flat_map snd gs) W h2 f2 ps P) as (E1 & E2). split; [exact W2|]. split; [|split; [exact E2|exact a3]].
  intros u hu. split; [now apply E1|]. destruct W2 as (_ & c2 & _). specialize (c2 u). rewrite (E1 u hu) in c2.
  destruct (v_edges h2 u); [destruct c2|reflexivity].
Qed.
Print Assumptions C153_part.

(** A vertex named as kept is not spared when it is connected to those removed. *)
Theorem C153_kept_refuted : exists h f gs n fuel inner h' k, whole h f /\ (forall u, n <= u -> f u = []) /\
  In k (map fst gs) /\ ~ In k (flat_map snd gs) /\ f k <> [] /\
  remove_part fuel inner h (stack_of gs) = Ok h' /\ v_edges h' k = None.
Proof.
  exists C151_path, C151_around, [(0, [2])], 3, 9, 9.
  destruct (remove_part 9 9 C151_path (stack_of [(0, [2])])) as [h'| |] eqn:e; try (vm_compute in e; discriminate e).
  exists h', 0. split; [exact C151_path_whole|].
  split; [intros [|[|[|u]]] hu; try lia; reflexivity|]. split; [now left|]. split; [intros [z|[]]; discriminate z|].
  split; [discriminate|]. split; [reflexivity|].
  assert (M : match remove_part 9 9 C151_path (stack_of [(0, [2])]) with Ok x => v_edges x 0 = None | _ => False end)
    by (vm_compute; reflexivity).
  rewrite e in M. exact M.
Qed.
Print Assumptions C153_kept_refuted.

(** A path of three vertices beside a pair of vertices: removing an end of the path leaves the pair. *)
Definition C153_two : hull := match pair_hull C151_path 10 11 5 6 with Ok h => h | _ => C151_path end.
Example C153_two_parts : exists f, whole C153_two f /\ (forall u, 7 <= u -> f u = []) /\ f 1 = [1; 2] /\ f 5 = [10] /\
  match remove_part 9 9 C153_two (stack_of [(9, [0])]) with
  | Ok h => map (v_edges h) [0; 1; 2; 5; 6] = [None; None; None; Some 10; Some 11]
  | _ => False
  end.
Proof.
  destruct (C151_pair C151_path C151_around 10 11 5 6 C151_path_whole) as (h' & e & W & _); try reflexivity; try discriminate.
  assert (q : h' = C153_two) by (unfold C153_two; rewrite e; reflexivity). rewrite q in W.
  eexists. split; [exact W|]. split; [|split; [reflexivity|split; [reflexivity|vm_compute; reflexivity]]].
  intros u hu. cbn beta. destruct (Nat.eqb_spec u 5); [lia|]. destruct (Nat.eqb_spec u 6); [lia|].
  destruct u as [|[|[|u]]]; try lia. reflexivity.
Qed.
