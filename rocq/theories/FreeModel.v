(** * The pools of objects of the bundled convex hull

    Model of [PoolArray<T>] and [Pool<T>], /repo/trajopt_ext/vhacd/src/btConvexHullComputer.cpp lines
    525-605.  An object is a place in an array of the pool; the only member the pool uses is [next],
    which the program that was given the object may write as well.  Undefined: a place outside its
    array, and reading a [next] that nothing has written (fresh memory, or an object just constructed:
    the constructor of [Edge] writes nothing, see lines 390-408).  Simplified: allocation does not
    fail, array sizes are natural numbers, addresses are numbers given in order. *)
From Coq Require Import List Arith Bool.
From Verif Require Import Common.
Import ListNotations.

Definition obj : Type := nat * nat.
Definition oeqb (a b : obj) : bool := (fst a =? fst b) && (snd a =? snd b).
(** The members [next] of all objects: not written, or null or an object. *)
Definition links : Type := obj -> option (option obj).
Definition link (l : links) (o : obj) (v : option (option obj)) : links := fun p => if oeqb p o then v else l p.

(** [PoolArray], lines 525-535; [Pool], lines 548-555. *)
Record parray := PA { psize : nat; pnext : option nat }.
Record pool := Pool { parrays : list parray; arrays : option nat; next_array : option nat;
                      free_objects : option obj; array_size : nat; nexts : links }.

(** [Pool()], line 558. *)
Definition pool_new : pool := Pool [] None None None 256 (fun _ => None).

(** [PoolArray::init], lines 537-545: places [i] to [i + n - 1]. *)
Fixpoint init_loop (l : links) (a size i n : nat) : links :=
  match n with
  | 0 => l
  | S n' => init_loop (link l (a, i) (Some (if i + 1 <? size then Some (a, i + 1) else None))) a size (S i) n'
  end.

(** [newObject], lines 577-597. *)
Definition take (p : pool) (o : obj) : outcome (pool * obj) :=
  match nth_error (parrays p) (fst o) with
  | Some a =>
      if snd o <? psize a then
        match nexts p o with
        | Some n => Ok (Pool (parrays p) (arrays p) (next_array p) n (array_size p) (link (nexts p) o None), o)
        | None => Undef
        end
      else Undef
  | None => Undef
  end.
Definition init_array (p : pool) (a : nat) : outcome (pool * obj) :=
  match nth_error (parrays p) a with
  | Some k => Ok (Pool (parrays p) (arrays p) (next_array p) (free_objects p) (array_size p)
                       (init_loop (nexts p) a (psize k) 0 (psize k)), (a, 0))
  | None => Undef
  end.
Definition new_object (p : pool) : outcome (pool * obj) :=
  match free_objects p with
  | Some o => take p o
  | None =>
      obind (match next_array p with
             | Some a => match nth_error (parrays p) a with
                         | Some k => Ok (Pool (parrays p) (arrays p) (pnext k) None (array_size p) (nexts p), a)
                         | None => Undef
                         end
             | None => let a := length (parrays p) in
                       Ok (Pool (parrays p ++ [PA (array_size p) (arrays p)]) (Some a) None None (array_size p) (nexts p), a)
             end) (fun '(p1, a) =>
        obind (init_array p1 a) (fun '(p2, o) => take p2 o))
  end.

(** [freeObject], lines 599-604; [reset], 570-574; [setArraySize], 576; writing [next]. *)
Definition free_object (p : pool) (o : obj) : outcome pool :=
  match nth_error (parrays p) (fst o) with
  | Some a =>
      if snd o <? psize a
      then Ok (Pool (parrays p) (arrays p) (next_array p) (Some o) (array_size p) (link (nexts p) o (Some (free_objects p))))
      else Undef
  | None => Undef
  end.
Definition reset (p : pool) : pool :=
  Pool (parrays p) (arrays p) (arrays p) None (array_size p) (nexts p).
Definition set_array_size (p : pool) (n : nat) : pool :=
  Pool (parrays p) (arrays p) (next_array p) (free_objects p) n (nexts p).
Definition write_next (p : pool) (o : obj) (v : option obj) : outcome pool :=
  match nth_error (parrays p) (fst o) with
  | Some a =>
      if snd o <? psize a
      then Ok (Pool (parrays p) (arrays p) (next_array p) (free_objects p) (array_size p) (link (nexts p) o (Some v)))
      else Undef
  | None => Undef
  end.

Inductive fop := FNew | FFree (o : obj) | FReset | FSize (n : nat) | FWrite (o : obj) (v : option obj).
Definition fstep (p : pool) (f : fop) : outcome (pool * option obj) :=
  match f with
  | FNew => obind (new_object p) (fun '(p', o) => Ok (p', Some o))
  | FFree o => obind (free_object p o) (fun p' => Ok (p', None))
  | FReset => Ok (reset p, None)
  | FSize n => Ok (set_array_size p n, None)
  | FWrite o v => obind (write_next p o v) (fun p' => Ok (p', None))
  end.
(** A program that uses the pool: what it asks next may depend on what it was given.  The run records
    what was asked and answered. *)
Inductive fprog := FDone | FAsk (f : fop) (k : option obj -> fprog).
Fixpoint frun (p : pool) (g : fprog) : outcome (pool * list (fop * option obj)) :=
  match g with
  | FDone => Ok (p, [])
  | FAsk f k => obind (fstep p f) (fun '(p1, o) => obind (frun p1 (k o)) (fun '(p2, t) => Ok (p2, (f, o) :: t)))
  end.
