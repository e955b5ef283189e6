(** * The faces near a vertex of the bundled convex hull

    Model of /repo/trajopt_ext/vhacd/src/btConvexHullComputer.cpp: [Face::init], lines 446-461, and
    [Vertex::receiveNearbyFaces], lines 366-388.  Each vertex has a list of faces, linked by
    [nextWithSameNearbyVertex] from [firstNearbyFace] to [lastNearbyFace].  Undefined: a failed
    [btAssert].  Simplified: [origin], [dir0] and [dir1] of a face are left out (C149 has their numbers),
    and vertices and faces always exist. *)
From Coq Require Import List Arith Bool.
From Verif Require Import Common.
Import ListNotations.

Record near := Near { first_f : nat -> option nat; last_f : nat -> option nat;
                      next_f : nat -> option nat; nearby : nat -> option nat }.
Definition put (m : nat -> option nat) (k : nat) (v : option nat) : nat -> option nat := fun x => if x =? k then v else m x.

(** The constructors [Vertex()], line 349, and [Face()], line 445, write null. *)
Definition near_new : near := Near (fun _ => None) (fun _ => None) (fun _ => None) (fun _ => None).

(** [Face::init], lines 446-461, of the face [f] at the vertex [a]. *)
Definition face_init (s : near) (f a : nat) : near :=
  let nb := put (nearby s) f (Some a) in
  match last_f s a with
  | Some l => Near (first_f s) (put (last_f s) a (Some f)) (put (next_f s) l (Some f)) nb
  | None => Near (put (first_f s) a (Some f)) (put (last_f s) a (Some f)) (next_f s) nb
  end.

(** The loop of lines 380-384. *)
Fixpoint retarget (fuel : nat) (s : near) (f : option nat) (src this : nat) : outcome near :=
  match f with
  | None => Ok s
  | Some f =>
      match fuel with
      | 0 => NoFuel
      | S fuel' =>
          match nearby s f with
          | Some v =>
              if v =? src then
                let s1 := Near (first_f s) (last_f s) (next_f s) (put (nearby s) f (Some this)) in
                retarget fuel' s1 (next_f s1 f) src this
              else Undef
          | None => Undef
          end
      end
  end.
(** [receiveNearbyFaces], lines 366-388. *)
Definition receive (fuel : nat) (s : near) (this src : nat) : outcome near :=
  let s1 := match last_f s this with
            | Some l => Near (first_f s) (last_f s) (put (next_f s) l (first_f s src)) (nearby s)
            | None => Near (put (first_f s) this (first_f s src)) (last_f s) (next_f s) (nearby s)
            end in
  let s2 := match last_f s1 src with
            | Some l => Near (first_f s1) (put (last_f s1) this (Some l)) (next_f s1) (nearby s1)
            | None => s1
            end in
  obind (retarget fuel s2 (first_f s2 src) src this) (fun s3 =>
  Ok (Near (put (first_f s3) src None) (put (last_f s3) src None) (next_f s3) (nearby s3))).

(** What is done with faces: a new face at a vertex, or a vertex takes over those of another. *)
Inductive nop := NInit (f a : nat) | NReceive (this src : nat).
Definition nstep (fuel : nat) (s : near) (o : nop) : outcome near :=
  match o with NInit f a => Ok (face_init s f a) | NReceive this src => receive fuel s this src end.
Fixpoint nrun (fuel : nat) (s : near) (os : list nop) : outcome near :=
  match os with [] => Ok s | o :: r => obind (nstep fuel s o) (fun s1 => nrun fuel s1 r) end.
