(** * What the lists of faces should be *)
From Coq Require Import List Arith Bool.
From Verif Require Import Common NearModel.
Import ListNotations.

(** The faces of each vertex, as lists. *)
Definition faces : Type := nat -> list nat.
Definition does (o : nop) (f : faces) : faces :=
  match o with
  | NInit x a => fun v => if v =? a then f a ++ [x] else f v
  | NReceive this src => fun v => if v =? this then f this ++ f src else if v =? src then [] else f v
  end.
(** A new face has not been used before; a vertex does not take over its own faces. *)
Definition allowed (o : nop) (f : faces) : Prop :=
  match o with NInit x _ => forall v, ~ In x (f v) | NReceive this src => this <> src end.
Fixpoint all_allowed (os : list nop) (f : faces) : Prop :=
  match os with [] => True | o :: r => allowed o f /\ all_allowed r (does o f) end.
Definition all_done (os : list nop) (f : faces) : faces := fold_left (fun g o => does o g) os f.

(** What a program that follows the links from the first face of [v] sees. *)
Fixpoint follow (n : nat) (s : near) (x : option nat) : list nat :=
  match n, x with S n', Some y => y :: follow n' s (next_f s y) | _, _ => [] end.
Definition last_of (l : list nat) : option nat := match rev l with [] => None | x :: _ => Some x end.
Definition shows (s : near) (f : faces) : Prop :=
  forall v, (forall n, length (f v) <= n -> follow n s (first_f s v) = f v) /\
            last_f s v = last_of (f v) /\
            forall x, In x (f v) -> nearby s x = Some v.
