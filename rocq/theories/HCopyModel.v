(** * What the bundled convex hull returns

    Model of the copying of the hull into the arrays of the result, [btConvexHullComputer::compute],
    /repo/trajopt_ext/vhacd/src/btConvexHullComputer.cpp lines 2506-2520 and 2549-2599, and of the
    functions of [Edge], btConvexHullComputer.h lines 34-57.  Undefined: what [HEdgeModel] says, and an
    index outside the array of edges.  Simplified: coordinates are left out (the list of vertices is the
    list of the vertices of the hull, C149 has their coordinates), the array of faces is in [HFaceModel] (lines 2601-2630),
    a negative [copy] is [None], and the array of edges is a function and its size (C148). *)
From Coq Require Import List Arith Bool ZArith.
From Verif Require Import Common HEdgeModel.
Import ListNotations.

(** btConvexHullComputer.h lines 37-39; a member not written is [None]. *)
Record oedge := OE { o_next : option Z; o_reverse : option Z; o_target : option nat }.
(** [copy] of the vertices, [oldVertices], [copy] of the edges, [edges] and its size. *)
Record copyst := CS { vc : nat -> option nat; olds : list nat; ec : nat -> option nat; oes : nat -> oedge; osize : nat }.
Definition wr {A} (m : nat -> A) (k : nat) (v : A) : nat -> A := fun x => if x =? k then v else m x.
Definition copy_new : copyst := CS (fun _ => None) [] (fun _ => None) (fun _ => OE None None None) 0.

(** [getVertexCopy], lines 2506-2520. *)
Definition vertex_copy (st : copyst) (v : nat) : copyst * nat :=
  match vc st v with
  | Some i => (st, i)
  | None => (CS (wr (vc st) v (Some (length (olds st)))) (olds st ++ [v]) (ec st) (oes st) (osize st), length (olds st))
  end.
(** Lines 2568-2584: an edge without a copy, and its reverse, get one. *)
Definition edge_copy (h : hull) (st : copyst) (copied e : nat) : outcome copyst :=
  match ec st e with
  | Some _ => Ok st
  | None =>
      obind (get h e) (fun x => obind (deref (e_reverse x)) (fun r => obind (get h r) (fun _ =>
      obind (deref (e_target x)) (fun t =>
        let s := osize st in
        let '(st1, ti) := vertex_copy st t in
        Ok (CS (vc st1) (olds st1) (wr (wr (ec st1) e (Some s)) r (Some (s + 1)))
               (wr (wr (oes st1) s (OE None (Some 1%Z) (Some ti))) (s + 1) (OE None (Some (-1)%Z) (Some copied))) (s + 2))))))
  end.
Definition set_next (st : copyst) (c : nat) (z : Z) : outcome copyst :=
  if c <? osize st
  then Ok (CS (vc st) (olds st) (ec st) (wr (oes st) c (OE (Some z) (o_reverse (oes st c)) (o_target (oes st c)))) (osize st))
  else Undef.
(** The loop of lines 2566-2595 and line 2596; [prev] is [prevCopy], [firstc] is [firstCopy] once there is a [prevCopy]. *)
Fixpoint ring_loop (fuel : nat) (h : hull) (st : copyst) (copied first e : nat) (prev : option nat) (firstc : nat) : outcome copyst :=
  match fuel with
  | 0 => NoFuel
  | S fuel' =>
      obind (edge_copy h st copied e) (fun st1 => obind (deref (ec st1 e)) (fun c =>
      obind (match prev with Some p => set_next st1 c (Z.of_nat p - Z.of_nat c) | None => Ok st1 end) (fun st2 =>
      let firstc' := match prev with Some _ => firstc | None => c end in
      obind (get h e) (fun x => obind (deref (e_next x)) (fun n =>
        if n =? first then set_next st2 firstc' (Z.of_nat c - Z.of_nat firstc')
        else ring_loop fuel' h st2 copied first n (Some c) firstc')))))
  end.
(** Lines 2558-2598 for one vertex, and the loop of line 2556. *)
Definition copy_vertex (inner : nat) (h : hull) (st : copyst) (copied v : nat) : outcome copyst :=
  match v_edges h v with None => Ok st | Some first => ring_loop inner h st copied first first None 0 end.
Fixpoint copy_loop (fuel inner : nat) (h : hull) (st : copyst) (copied : nat) : outcome copyst :=
  match nth_error (olds st) copied with
  | None => Ok st
  | Some v =>
      match fuel with
      | 0 => NoFuel
      | S fuel' => obind (copy_vertex inner h st copied v) (fun st1 => copy_loop fuel' inner h st1 (copied + 1))
      end
  end.
(** Lines 2549-2599, for [hull.vertexList]. *)
Definition copy_hull (fuel inner : nat) (h : hull) (v0 : nat) : outcome copyst :=
  copy_loop fuel inner h (fst (vertex_copy copy_new v0)) 0.

(** btConvexHullComputer.h lines 44-56: the edge at an index. *)
Definition target_vertex (st : copyst) (i : nat) : option nat := if i <? osize st then o_target (oes st i) else None.
Definition shifted (st : copyst) (i : nat) (d : option Z) : option nat :=
  match d with
  | Some z => let j := (Z.of_nat i + z)%Z in if ((0 <=? j) && (j <? Z.of_nat (osize st)))%Z then Some (Z.to_nat j) else None
  | None => None
  end.
Definition reverse_edge (st : copyst) (i : nat) : option nat := if i <? osize st then shifted st i (o_reverse (oes st i)) else None.
Definition next_edge_of_vertex (st : copyst) (i : nat) : option nat := if i <? osize st then shifted st i (o_next (oes st i)) else None.
Definition source_vertex (st : copyst) (i : nat) : option nat :=
  match reverse_edge st i with Some j => target_vertex st j | None => None end.
Definition next_edge_of_face (st : copyst) (i : nat) : option nat :=
  match reverse_edge st i with Some j => next_edge_of_vertex st j | None => None end.
