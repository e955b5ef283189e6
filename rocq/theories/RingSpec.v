(** * Circular sequences: what the list should do *)
From Coq Require Import List Arith.
From Verif Require Import Common RingModel.
Import ListNotations.

Section Spec.
  Context {T : Type}.

  (** The elements, from the head on in the direction of [Next]. *)
  Definition seq_ := list (option T).

  (** What each operation may be asked for ... *)
  Definition may (o : rop T) (l : seq_) : Prop :=
    match o with
    | OData => exists x r, l = Some x :: r
    | ODeleteAt i => i < length l
    | _ => True
    end.

  (** ... and what it makes of the sequence, with its result. *)
  Definition makes (o : rop T) (l l' : seq_) (r : rres T) : Prop :=
    match o with
    | OAdd d => r = NNone /\ match l with [] => l' = [d] | x :: q => l' = d :: q ++ [x] end
    | ONext => match l with [] => l' = [] /\ r = NBool false
                          | x :: q => l' = q ++ [x] /\ r = NBool true end
    | OPrev => (l = [] /\ l' = [] /\ r = NBool false) \/
               (exists q z, l = q ++ [z] /\ l' = z :: q /\ r = NBool true)
    | ODelete => match l with [] => l' = [] /\ r = NBool false | _ :: q => l' = q /\ r = NBool true end
    | ODeleteAt i => exists p x q, l = p ++ x :: q /\ length p = i /\ l' = p ++ q /\ r = NBool true
    | OClear => l' = [] /\ r = NNone
    | OData => l' = l /\ exists x q, l = Some x :: q /\ r = NData x
    | OSize => l' = l /\ r = NSize (length l)
    | OEmpty => l' = l /\ exists b, r = NBool b /\ (b = true <-> l = [])
    end.
  Fixpoint may_all (ops : list (rop T)) (l : seq_) : Prop :=
    match ops with
    | [] => True
    | o :: rest => may o l /\ forall l' r, makes o l l' r -> may_all rest l'
    end.
  Fixpoint makes_all (ops : list (rop T)) (l l' : seq_) (rs : list (rres T)) : Prop :=
    match ops, rs with
    | [], [] => l' = l
    | o :: ops', r :: rs' => exists k, makes o l k r /\ makes_all ops' k l' rs'
    | _, _ => False
    end.

  (** One step on from [a] is [b], and back. *)
  Definition linked (m : mem T) (a b : nat) : Prop := next_of m a = Ok b /\ prev_of m b = Ok a.
  Fixpoint chain (m : mem T) (l : list nat) : Prop :=
    match l with
    | a :: (b :: _) as r => linked m a b /\ chain m r
    | _ => True
    end.
  (** The nodes of a list, from the head round to the head again: no node twice. *)
  Definition ring (m : mem T) (l : list nat) : Prop :=
    NoDup l /\ match l with [] => True | a :: _ => chain m (l ++ [a]) end.
  Definition carries (m : mem T) (a : nat) (x : option T) : Prop :=
    exists n, cells m a = Some n /\ ndata n = x.
  Definition live (m : mem T) (a : nat) : Prop := cells m a <> None.

  (** A list holds a sequence, in the nodes [ns]. *)
  Definition holds_in (m : mem T) (l : clist) (ns : list nat) (xs : seq_) : Prop :=
    csize l = Some (length xs) /\ chead l = Some (hd_error ns) /\
    ring m ns /\ Forall2 (carries m) ns xs.
End Spec.
Arguments seq_ T : clear implicits.
