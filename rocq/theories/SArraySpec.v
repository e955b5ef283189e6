(** * Sequences: what an array should do *)
From Coq Require Import List Arith Bool.
From Verif Require Import Common SArrayModel.
Import ListNotations.

Section Spec.
  Context {T : Type}.
  Variable eqb : T -> T -> bool.

  (** The elements are written; [x] occurs at place [i]. *)
  Definition written (l : list (cell T)) : Prop := forall c, In c l -> c <> None.
  Definition at_ (l : list (cell T)) (i : nat) (x : T) : Prop := nth_error l i = Some (Some x).
  (** Place [i] is the first whose element equals [v]; no place does. *)
  Definition first_at (v : T) (l : list (cell T)) (i : nat) : Prop :=
    (exists x, at_ l i x /\ eqb v x = true) /\
    (forall j y, j < i -> at_ l j y -> eqb v y = false).
  Definition nowhere (v : T) (l : list (cell T)) : Prop :=
    forall j y, at_ l j y -> eqb v y = false.

  (** What an operation may be asked for (within bounds, of written elements) ... *)
  Definition allowed (N : nat) (o : aop T) (l : list (cell T)) : Prop :=
    match o with
    | APush _ | AResize _ | AClear | ASize => True
    | APushOwn i => (exists x, at_ l i x) /\ length l <= N
    | APop => l <> []
    | AGet i => exists x, at_ l i x
    | ASet i _ => i < length l
    | AFind _ | AInsert _ | AErase _ => written l
    end.

  (** ... and what it does to the sequence.  The elements that [Resize] adds are arbitrary. *)
  Definition does (o : aop T) (l : list (cell T)) (r : ares T) (l' : list (cell T)) : Prop :=
    match o with
    | APush v => l' = l ++ [Some v] /\ r = RUnit
    | APushOwn i => r = RUnit /\ forall x, at_ l i x -> l' = l ++ [Some x]
    | APop => r = RUnit /\ exists c, l = l' ++ [c]
    | AResize n => r = RUnit /\ length l' = n /\ firstn n l = firstn (length l) l'
    | AGet i => l' = l /\ exists x, at_ l i x /\ r = RVal x
    | ASet i v => r = RUnit /\ length l' = length l /\ at_ l' i v /\
                  forall j, j <> i -> nth_error l' j = nth_error l j
    | AFind v => l' = l /\
                 ((exists i, r = RFound true i /\ first_at v l i) \/
                  (r = RFound false (length l) /\ nowhere v l))
    | AInsert v => (r = RBool false /\ l' = l /\ exists i, first_at v l i) \/
                   (r = RBool true /\ l' = l ++ [Some v] /\ nowhere v l)
    | AErase v => (r = RBool true /\ exists a c b, l = a ++ c :: b /\ l' = a ++ b /\
                                                   first_at v l (length a)) \/
                  (r = RBool false /\ l' = l /\ nowhere v l)
    | AClear => l' = [] /\ r = RUnit
    | ASize => l' = l /\ r = RSize (length l)
    end.

  (** A sequence of operations all of which are allowed whatever the elements added by [Resize]
      are, and the results it may give. *)
  Fixpoint all_allowed (N : nat) (ops : list (aop T)) (l : list (cell T)) : Prop :=
    match ops with
    | [] => True
    | o :: rest => allowed N o l /\ forall r l', does o l r l' -> all_allowed N rest l'
    end.
  Fixpoint gives (ops : list (aop T)) (l : list (cell T)) (rs : list (ares T)) (l' : list (cell T)) : Prop :=
    match ops, rs with
    | [], [] => l' = l
    | o :: ops', r :: rs' => exists m, does o l r m /\ gives ops' m rs' l'
    | _, _ => False
    end.

  (** An array holds a sequence: as many elements as it says, and at their places what
      [operator[]] reads. *)
  Definition elements (N : nat) (s : sarray T) (l : list (cell T)) : Prop :=
    size s = length l /\ exists b, data N s = Ok b /\ firstn (length l) b = l.
End Spec.
