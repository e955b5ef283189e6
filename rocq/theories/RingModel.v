(** * The circular list of the bundled convex decomposition

    Model of [VHACD::CircularList<T>], /repo/trajopt_ext/vhacd/include/vhacd/inc/
    vhacdCircularList.h lines 32-91 and vhacdCircularList.inl lines 6-159.  The elements are nodes
    in a memory; an access through a null, uninitialised or deleted pointer is undefined.
    Simplified: addresses are not used again after [delete] (so that comparing a deleted pointer,
    .inl line 19, compares its address), allocation does not fail, and the size does not
    overflow. *)
From Coq Require Import List Arith.
From Verif Require Import Common.
Import ListNotations.

Section Ring.
  Context {T : Type}.

  (** [CircularListElement], vhacdCircularList.h lines 49-51; [None] for a member nothing has
      written (the constructors, lines 43-44, set at most the data). *)
  Record node := Node { ndata : option T; nnext : option nat; nprev : option nat }.

  (** The memory: the live nodes, and the next address to be given out. *)
  Record mem := Mem { cells : nat -> option node; fresh : nat }.
  Definition upd (h : nat -> option node) (a : nat) (n : option node) : nat -> option node :=
    fun b => if b =? a then n else h b.

  Definition load (m : mem) (a : nat) : outcome node :=
    match cells m a with Some n => Ok n | None => Undef end.
  Definition pointer (p : option nat) : outcome nat := match p with Some a => Ok a | None => Undef end.
  Definition next_of (m : mem) (a : nat) : outcome nat := obind (load m a) (fun n => pointer (nnext n)).
  Definition prev_of (m : mem) (a : nat) : outcome nat := obind (load m a) (fun n => pointer (nprev n)).
  Definition set_next (m : mem) (a b : nat) : outcome mem :=
    obind (load m a) (fun n =>
      Ok (Mem (upd (cells m) a (Some (Node (ndata n) (Some b) (nprev n)))) (fresh m))).
  Definition set_prev (m : mem) (a b : nat) : outcome mem :=
    obind (load m a) (fun n =>
      Ok (Mem (upd (cells m) a (Some (Node (ndata n) (nnext n) (Some b)))) (fresh m))).
  Definition new_node (m : mem) (d : option T) : mem * nat :=
    (Mem (upd (cells m) (fresh m) (Some (Node d None None))) (S (fresh m)), fresh m).
  Definition delete (m : mem) (a : nat) : outcome mem :=
    obind (load m a) (fun _ => Ok (Mem (upd (cells m) a None) (fresh m))).

  (** [CircularList], lines 89-90: [head] is [Some None] for null, [None] if uninitialised. *)
  Record clist := CL { chead : option (option nat); csize : option nat }.
  (** The constructor, lines 79-83. *)
  Definition cl_new : clist := CL (Some None) (Some 0).

  Definition size_of (l : clist) : outcome nat := match csize l with Some n => Ok n | None => Undef end.
  (** [m_head->]. *)
  Definition head_of (l : clist) : outcome nat :=
    match chead l with Some (Some a) => Ok a | _ => Undef end.

  (** [Delete()], .inl lines 40-65. *)
  Definition cl_delete (m : mem) (l : clist) : outcome (mem * clist * bool) :=
    obind (size_of l) (fun n =>
      match n with
      | 0 => Ok (m, l, false)
      | 1 => obind (head_of l) (fun h => obind (delete m h) (fun m' =>
               Ok (m', CL (Some None) (Some 0), true)))
      | S n' =>
          obind (head_of l) (fun h => obind (next_of m h) (fun next => obind (prev_of m h) (fun prev =>
          obind (delete m h) (fun m1 => obind (set_prev m1 next prev) (fun m2 =>
          obind (set_next m2 prev next) (fun m3 =>
            Ok (m3, CL (Some (Some next)) (Some n'), true)))))))
      end).

  (** [Delete(element)], lines 6-38, for an element that is not null. *)
  Definition cl_delete_at (m : mem) (l : clist) (e : nat) : outcome (mem * clist * bool) :=
    obind (size_of l) (fun n =>
      match n with
      | 0 => Ok (m, l, false)
      | 1 => obind (head_of l) (fun h => obind (delete m h) (fun m' =>
               Ok (m', CL (Some None) (Some 0), true)))
      | S n' =>
          obind (next_of m e) (fun next => obind (prev_of m e) (fun prev =>
          obind (delete m e) (fun m1 =>
          obind (head_of l) (fun h =>
          obind (set_prev m1 next prev) (fun m2 => obind (set_next m2 prev next) (fun m3 =>
            Ok (m3, CL (Some (Some (if e =? h then next else h))) (Some n'), true)))))))
      end).

  (** [Add], lines 66-106; [None] for the null pointer. *)
  Definition cl_add (m : mem) (l : clist) (d : option T) : outcome (mem * clist * nat) :=
    obind (size_of l) (fun n =>
      match n with
      | 0 =>
          let '(m1, c) := new_node m d in
          obind (set_prev m1 c c) (fun m2 => obind (set_next m2 c c) (fun m3 =>
            Ok (m3, CL (Some (Some c)) (Some 1), c)))
      | _ =>
          obind (head_of l) (fun h => obind (next_of m h) (fun next =>
          let '(m1, c) := new_node m d in
          obind (set_next m1 c next) (fun m2 => obind (set_prev m2 c h) (fun m3 =>
          obind (set_next m3 h c) (fun m4 => obind (set_prev m4 next c) (fun m5 =>
            Ok (m5, CL (Some (Some c)) (Some (S n)), c)))))))
      end).

  (** [Next], [Prev], lines 107-126. *)
  Definition cl_next (m : mem) (l : clist) : outcome (clist * bool) :=
    obind (size_of l) (fun n =>
      match n with
      | 0 => Ok (l, false)
      | _ => obind (head_of l) (fun h => obind (next_of m h) (fun a => Ok (CL (Some (Some a)) (csize l), true)))
      end).
  Definition cl_prev (m : mem) (l : clist) : outcome (clist * bool) :=
    obind (size_of l) (fun n =>
      match n with
      | 0 => Ok (l, false)
      | _ => obind (head_of l) (fun h => obind (prev_of m h) (fun a => Ok (CL (Some (Some a)) (csize l), true)))
      end).

  (** [Clear] and the destructor, vhacdCircularList.h lines 72-76 and 86. *)
  Fixpoint cl_clear (fuel : nat) (m : mem) (l : clist) : outcome (mem * clist) :=
    match fuel with
    | 0 => NoFuel
    | S f => obind (cl_delete m l) (fun r =>
               let '(m', l', b) := r in if b : bool then cl_clear f m' l' else Ok (m', l'))
    end.

  (** The loop that copies, .inl lines 132-138 and 149-155: [cur] is [current], [stop] is
      [rhs.m_head]. *)
  Fixpoint copy_loop (fuel : nat) (m : mem) (l : clist) (cur stop : nat) : outcome (mem * clist) :=
    match fuel with
    | 0 => NoFuel
    | S f => obind (next_of m cur) (fun c => obind (load m c) (fun n =>
             obind (cl_add m l (ndata n)) (fun r => let '(m', l', _) := r in
               if c =? stop then Ok (m', l') else copy_loop f m' l' c stop)))
    end.
  (** [operator=] from another list, lines 141-159. *)
  Definition cl_assign (fuel : nat) (m : mem) (l rhs : clist) : outcome (mem * clist) :=
    obind (cl_clear fuel m l) (fun r => let '(m1, l1) := r in
      obind (size_of rhs) (fun n =>
        match n with
        | 0 => Ok (m1, l1)
        | _ => obind (head_of rhs) (fun h => copy_loop fuel m1 l1 h h)
        end)).
  (** The copy constructor, lines 127-140: it has no initialisers. *)
  Definition cl_copy (fuel : nat) (m : mem) (rhs : clist) : outcome (mem * clist) :=
    obind (size_of rhs) (fun n =>
      match n with
      | 0 => Ok (m, CL None None)
      | _ => obind (head_of rhs) (fun h => copy_loop fuel m (CL None None) h h)
      end).

  (** [GetData], line 64, and the element reached from the head by [GetNext] [i] times. *)
  Definition cl_data (m : mem) (l : clist) : outcome T :=
    obind (head_of l) (fun h => obind (load m h) (fun n =>
      match ndata n with Some x => Ok x | None => Undef end)).
  Fixpoint walk (m : mem) (a i : nat) : outcome nat :=
    match i with 0 => Ok a | S i' => obind (next_of m a) (fun b => walk m b i') end.

  (** The operations on one list. *)
  Inductive rop := OAdd (d : option T) | ONext | OPrev | ODelete | ODeleteAt (i : nat) | OClear
                 | OData | OSize | OEmpty.
  Inductive rres := NNone | NBool (b : bool) | NData (x : T) | NSize (n : nat).
  Definition cl_step (m : mem) (l : clist) (o : rop) : outcome (mem * clist * rres) :=
    match o with
    | OAdd d => obind (cl_add m l d) (fun r => let '(m', l', _) := r in Ok (m', l', NNone))
    | ONext => obind (cl_next m l) (fun r => Ok (m, fst r, NBool (snd r)))
    | OPrev => obind (cl_prev m l) (fun r => Ok (m, fst r, NBool (snd r)))
    | ODelete => obind (cl_delete m l) (fun r => let '(m', l', b) := r in Ok (m', l', NBool b))
    | ODeleteAt i => obind (head_of l) (fun h => obind (walk m h i) (fun e =>
                       obind (cl_delete_at m l e) (fun r => let '(m', l', b) := r in Ok (m', l', NBool b))))
    | OClear => obind (size_of l) (fun n => obind (cl_clear (S n) m l) (fun r => Ok (fst r, snd r, NNone)))
    | OData => obind (cl_data m l) (fun x => Ok (m, l, NData x))
    | OSize => obind (size_of l) (fun n => Ok (m, l, NSize n))
    | OEmpty => obind (size_of l) (fun n => Ok (m, l, NBool (n =? 0)))
    end.
  Fixpoint cl_run (m : mem) (l : clist) (ops : list rop) : outcome (mem * clist * list rres) :=
    match ops with
    | [] => Ok (m, l, [])
    | o :: r => obind (cl_step m l o) (fun x => let '(m', l', y) := x in
                obind (cl_run m' l' r) (fun z => let '(m2, l2, ys) := z in Ok (m2, l2, y :: ys)))
    end.
End Ring.
Arguments node T : clear implicits.
Arguments mem T : clear implicits.
Arguments rop T : clear implicits.
Arguments rres T : clear implicits.
