(** * The array of the bundled convex decomposition

    Model of [VHACD::SArray<T, N>], /repo/trajopt_ext/vhacd/include/vhacd/inc/vhacdSArray.h lines
    37-154: up to [N] elements are kept in the object itself, more on the heap.  Blocks of memory
    are lists of cells, [None] being a cell nothing has written; reading such a cell, or any
    access outside a block, is undefined.  Simplified: [memcpy] copies values (the element types
    used are plain), allocation does not fail, capacities do not overflow [size_t], and two arrays
    never share a block (each block is reached through one [m_data] only). *)
From Coq Require Import List Arith Bool.
From Verif Require Import Common.
Import ListNotations.

(** A cell of memory: what has been written to it, if anything. *)
Notation cell := option.

Section SArray.
  Context {T : Type}.
  (** [operator==] of the element type, whatever it does. *)
  Variable eqb : T -> T -> bool.
  (** The template parameter [N]. *)
  Variable N : nat.
  (** The largest [size_t]. *)
  Variable size_max : nat.

  (** The members, lines 150-153; [heap] is [m_data] ([None] for null). *)
  Record sarray := SA { inl : list (cell T); heap : option (list (cell T)); size : nat; maxsize : nat }.

  (** The default constructor, lines 133-138 and 146. *)
  Definition sa_new : sarray := SA (repeat None N) None 0 N.

  (** [Data()], lines 52-53, and what it points to after the block has been changed. *)
  Definition data (s : sarray) : outcome (list (cell T)) :=
    if maxsize s =? N then Ok (inl s)
    else match heap s with Some b => Ok b | None => Undef end.
  Definition set_data (s : sarray) (b : list (cell T)) : sarray :=
    if maxsize s =? N then SA b (heap s) (size s) (maxsize s)
    else SA (inl s) (Some b) (size s) (maxsize s).
  Definition set_size (s : sarray) (n : nat) : sarray := SA (inl s) (heap s) n (maxsize s).

  (** Reading and writing a cell of a block; [memcpy] of [n] cells. *)
  Definition read (b : list (cell T)) (i : nat) : outcome T :=
    match nth_error b i with Some (Some x) => Ok x | _ => Undef end.
  Definition write (b : list (cell T)) (i : nat) (c : cell T) : outcome (list (cell T)) :=
    if i <? length b then Ok (firstn i b ++ c :: skipn (S i) b) else Undef.
  Definition memcpy (dst src : list (cell T)) (n : nat) : outcome (list (cell T)) :=
    if (n <=? length dst) && (n <=? length src) then Ok (firstn n src ++ skipn n dst) else Undef.

  (** [operator[]], lines 41-50, read and written; it does not look at the size. *)
  Definition sa_get (s : sarray) (i : nat) : outcome T := obind (data s) (fun b => read b i).
  Definition sa_set (s : sarray) (i : nat) (v : T) : outcome sarray :=
    obind (data s) (fun b => obind (write b i (Some v)) (fun b' => Ok (set_data s b'))).

  (** [Clear], lines 54-60. *)
  Definition sa_clear (s : sarray) : sarray := SA (inl s) None 0 N.

  (** [PopBack], line 61: the size wraps. *)
  Definition sa_pop (s : sarray) : sarray :=
    set_size s (match size s with 0 => size_max | S n => n end).

  (** [Allocate], lines 62-72, and [Resize], lines 73-77. *)
  Definition sa_allocate (s : sarray) (n : nat) : outcome sarray :=
    if maxsize s <? n then
      obind (data s) (fun b => obind (memcpy (repeat None n) b (size s)) (fun t =>
        Ok (SA (inl s) (Some t) (size s) n)))
    else Ok s.
  Definition sa_resize (s : sarray) (n : nat) : outcome sarray :=
    obind (sa_allocate s n) (fun s' => Ok (set_size s' n)).

  (** [PushBack], lines 79-92: first the growth, then the element. *)
  Definition sa_grow (s : sarray) : outcome sarray :=
    if size s =? maxsize s then
      obind (data s) (fun b => obind (memcpy (repeat None (2 * maxsize s)) b (maxsize s)) (fun t =>
        Ok (SA (inl s) (Some t) (size s) (2 * maxsize s))))
    else Ok s.
  Definition sa_put (s : sarray) (v : T) : outcome sarray :=
    obind (data s) (fun b => obind (write b (size s) (Some v)) (fun b' =>
      Ok (set_size (set_data s b') (S (size s))))).
  Definition sa_push (s : sarray) (v : T) : outcome sarray := obind (sa_grow s) (fun s' => sa_put s' v).

  (** [PushBack(a[i])] on [a] itself: the argument is a reference into the block, read after the
      growth.  If that block was on the heap and has been deleted (line 86), the read is
      undefined; the block in the object stays. *)
  Definition sa_push_own (s : sarray) (i : nat) : outcome sarray :=
    obind (sa_grow s) (fun s' =>
      obind (if size s =? maxsize s
             then (if maxsize s =? N then read (inl s) i else Undef)
             else sa_get s i) (fun v => sa_put s' v)).

  (** [Find], lines 93-100: whether it was found, and [pos]. *)
  Fixpoint find_loop (b : list (cell T)) (v : T) (pos n : nat) : outcome (bool * nat) :=
    match n with
    | 0 => Ok (false, pos)
    | S n' => obind (read b pos) (fun x => if eqb v x then Ok (true, pos) else find_loop b v (S pos) n')
    end.
  Definition sa_find (s : sarray) (v : T) : outcome (bool * nat) :=
    obind (data s) (fun b => find_loop b v 0 (size s)).

  (** [Insert], lines 101-108. *)
  Definition sa_insert (s : sarray) (v : T) : outcome (sarray * bool) :=
    obind (sa_find s v) (fun r =>
      if fst r then Ok (s, false) else obind (sa_push s v) (fun s' => Ok (s', true))).

  (** [Erase], lines 109-121. *)
  Fixpoint shift_loop (b : list (cell T)) (j n : nat) : outcome (list (cell T)) :=
    match n with
    | 0 => Ok b
    | S n' =>
        match nth_error b j with
        | Some c => obind (write b (j - 1) c) (fun b' => shift_loop b' (S j) n')
        | None => Undef
        end
    end.
  Definition sa_erase (s : sarray) (v : T) : outcome (sarray * bool) :=
    obind (sa_find s v) (fun r =>
      if fst r then
        obind (data s) (fun b => obind (shift_loop b (snd r + 1) (size s - (snd r + 1))) (fun b' =>
          Ok (set_size (set_data s b') (size s - 1), true)))
      else Ok (s, false)).

  (** [operator=] from another array, lines 122-132, and the copy constructor, lines 139-145. *)
  Definition sa_assign (s rhs : sarray) : outcome sarray :=
    let s1 := if maxsize s <? size rhs
              then SA (inl s) (Some (repeat None (maxsize rhs))) (size s) (maxsize rhs) else s in
    let s2 := set_size s1 (size rhs) in
    obind (data s2) (fun d => obind (data rhs) (fun b => obind (memcpy d b (size rhs)) (fun d' =>
      Ok (set_data s2 d')))).
  Definition sa_copy (rhs : sarray) : outcome sarray := sa_assign sa_new rhs.

  (** The public operations on one array and what they return. *)
  Inductive aop := APush (v : T) | APushOwn (i : nat) | APop | AResize (n : nat) | AGet (i : nat)
                 | ASet (i : nat) (v : T) | AFind (v : T) | AInsert (v : T) | AErase (v : T)
                 | AClear | ASize.
  Inductive ares := RUnit | RVal (v : T) | RBool (b : bool) | RFound (b : bool) (pos : nat) | RSize (n : nat).
  Definition sa_step (s : sarray) (o : aop) : outcome (sarray * ares) :=
    match o with
    | APush v => obind (sa_push s v) (fun s' => Ok (s', RUnit))
    | APushOwn i => obind (sa_push_own s i) (fun s' => Ok (s', RUnit))
    | APop => Ok (sa_pop s, RUnit)
    | AResize n => obind (sa_resize s n) (fun s' => Ok (s', RUnit))
    | AGet i => obind (sa_get s i) (fun v => Ok (s, RVal v))
    | ASet i v => obind (sa_set s i v) (fun s' => Ok (s', RUnit))
    | AFind v => obind (sa_find s v) (fun r => Ok (s, RFound (fst r) (snd r)))
    | AInsert v => obind (sa_insert s v) (fun r => Ok (fst r, RBool (snd r)))
    | AErase v => obind (sa_erase s v) (fun r => Ok (fst r, RBool (snd r)))
    | AClear => Ok (sa_clear s, RUnit)
    | ASize => Ok (s, RSize (size s))
    end.
  Fixpoint sa_run (s : sarray) (ops : list aop) : outcome (sarray * list ares) :=
    match ops with
    | [] => Ok (s, [])
    | o :: r => obind (sa_step s o) (fun sr =>
                  obind (sa_run (fst sr) r) (fun tr => Ok (fst tr, snd sr :: snd tr)))
    end.
End SArray.
Arguments sarray T : clear implicits.
Arguments aop T : clear implicits.
Arguments ares T : clear implicits.
