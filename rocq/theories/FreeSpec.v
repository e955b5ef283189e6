(** * Pools: what they should do *)
From Coq Require Import List Arith Bool.
From Verif Require Import Common FreeModel.
Import ListNotations.

(** What a pool is asked and what it answers, for a program that holds the objects [held]: it frees
    and writes only those, and asks for arrays of at least one place. *)
Definition fallowed (f : fop) (held : list obj) : Prop :=
  match f with
  | FNew | FReset => True
  | FFree o | FWrite o _ => In o held
  | FSize n => 0 < n
  end.
(** A new object is not one of those held; freeing one leaves the others; resetting leaves none. *)
Definition fdoes (f : fop) (held : list obj) (r : option obj) (held' : list obj) : Prop :=
  match f with
  | FNew => exists o, r = Some o /\ ~ In o held /\ held' = o :: held
  | FFree o => r = None /\ exists a b, held = a ++ o :: b /\ held' = a ++ b
  | FReset => r = None /\ held' = []
  | FSize _ | FWrite _ _ => r = None /\ held' = held
  end.
Fixpoint fall (g : fprog) (held : list obj) : Prop :=
  match g with
  | FDone => True
  | FAsk f k => fallowed f held /\ forall r held', fdoes f held r held' -> fall (k r) held'
  end.
(** The answers leave the program with the objects [held']. *)
Fixpoint fgives (t : list (fop * option obj)) (held held' : list obj) : Prop :=
  match t with
  | [] => held' = held
  | (f, r) :: t' => exists m, fdoes f held r m /\ fgives t' m held'
  end.
(** The places of a pool. *)
Definition place_of (p : pool) (o : obj) : Prop :=
  exists a, nth_error (parrays p) (fst o) = Some a /\ snd o < psize a.
(** A request that leaves the object [o] to the program and does not write it. *)
Definition leaves (f : fop) (o : obj) : Prop :=
  match f with
  | FNew | FSize _ => True
  | FReset => False
  | FFree q | FWrite q _ => q <> o
  end.
