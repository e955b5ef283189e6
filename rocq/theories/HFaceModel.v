(** * The faces that the bundled convex hull returns

    Model of the loop that fills the array of faces, [btConvexHullComputer::compute],
    /repo/trajopt_ext/vhacd/src/btConvexHullComputer.cpp lines 2601-2630, after the copying of [HCopyModel].
    Undefined and simplified as there. *)
From Coq Require Import List Arith Bool ZArith.
From Verif Require Import Common HEdgeModel HCopyModel.
Import ListNotations.

(** Lines 2616-2624: the edges of the face of [e], from [x] on, lose their [copy]. *)
Fixpoint face_walk (fuel : nat) (h : hull) (ec : nat -> option nat) (e x : nat) : outcome (nat -> option nat) :=
  match fuel with
  | 0 => NoFuel
  | S fuel' =>
      let ec1 := wr ec x None in
      obind (get h x) (fun ex => obind (deref (e_reverse ex)) (fun r => obind (get h r) (fun er =>
      obind (deref (e_prev er)) (fun y => if y =? e then Ok ec1 else face_walk fuel' h ec1 e y))))
  end.
(** Lines 2607-2628: the edges of one vertex, from [e] on. *)
Fixpoint ring_faces (fuel inner : nat) (h : hull) (ec : nat -> option nat) (first e : nat) (fs : list nat) :
  outcome ((nat -> option nat) * list nat) :=
  match fuel with
  | 0 => NoFuel
  | S fuel' =>
      obind (match ec e with
             | Some c => obind (face_walk inner h ec e e) (fun ec1 => Ok (ec1, fs ++ [c]))
             | None => Ok (ec, fs)
             end) (fun '(ec1, fs1) =>
      obind (get h e) (fun x => obind (deref (e_next x)) (fun n =>
        if n =? first then Ok (ec1, fs1) else ring_faces fuel' inner h ec1 first n fs1)))
  end.
(** Lines 2601-2630: the vertices of the result in order. *)
Fixpoint faces_loop (fuel inner : nat) (h : hull) (ec : nat -> option nat) (vs fs : list nat) : outcome (list nat) :=
  match vs with
  | [] => Ok fs
  | v :: r =>
      match v_edges h v with
      | None => faces_loop fuel inner h ec r fs
      | Some first => obind (ring_faces fuel inner h ec first first fs) (fun '(ec1, fs1) => faces_loop fuel inner h ec1 r fs1)
      end
  end.
Definition copy_faces (fuel inner : nat) (h : hull) (st : copyst) : outcome (list nat) :=
  faces_loop fuel inner h (ec st) (olds st) [].
