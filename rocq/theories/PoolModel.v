(** * The memory of the array of the bundled convex hull

    Model of [btAlignedObjectArray<T>], /repo/trajopt_ext/vhacd/include/vhacd/inc/btAlignedObjectArray.h
    lines 47-283 and 444-459 (sorting and searching are in SortModel.v), with [BT_USE_PLACEMENT_NEW]
    and [BT_ALLOW_ARRAY_COPY_OPERATOR] as in lines 31 and 34.  Several arrays live in one memory, a
    list of blocks; a block is a list of cells, a cell holds a constructed element or nothing.
    Undefined: access outside a block or to a freed one, reading or destroying what has not been
    constructed, freeing what the allocator has not given or has freed.  The memory also counts the
    elements constructed and destroyed.  Simplified: sizes are natural numbers that do not overflow
    [int32_t], allocation does not fail, constructors and destructors of elements have no effect
    beyond being counted, the temporaries [T()] of default arguments are not counted, and the checks
    [btAssert] are not modelled (what they check is undefined anyway). *)
From Coq Require Import List Arith Bool.
From Verif Require Import Common.
Import ListNotations.

Section Pool.
  Context {T : Type}.

  (** A block: whether it is the caller's (not the allocator's), and its cells ([None]: freed). *)
  Record block := Blk { foreign : bool; cells : option (list (option T)) }.
  Record memory := Mem { blocks : list block; made : nat; gone : nat }.

  (** The members, lines 52-58; [ptr] is [m_data] ([None] for null). *)
  Record oarray := OA { ptr : option nat; osize : nat; ocap : nat; owns : bool }.

  Definition upd {A} (l : list A) (i : nat) (x : A) : list A :=
    if i <? length l then firstn i l ++ x :: skipn (S i) l else l.

  (** The cells a pointer leads to, and changing them. *)
  Definition deref (m : memory) (p : option nat) : outcome (list (option T)) :=
    match p with
    | None => Undef
    | Some b => match nth_error (blocks m) b with Some (Blk _ (Some c)) => Ok c | _ => Undef end
    end.
  Definition store (m : memory) (p : option nat) (c : option (list (option T))) : memory :=
    match p with
    | None => m
    | Some b => match nth_error (blocks m) b with
                | Some k => Mem (upd (blocks m) b (Blk (foreign k) c)) (made m) (gone m)
                | None => m
                end
    end.

  (** [p[i]] read; [new (&p[i]) T(v)]; [p[i] = v]; [p[i].~T()]. *)
  Definition load (m : memory) (p : option nat) (i : nat) : outcome T :=
    obind (deref m p) (fun c => match nth_error c i with Some (Some v) => Ok v | _ => Undef end).
  Definition construct (m : memory) (p : option nat) (i : nat) (v : T) : outcome memory :=
    obind (deref m p) (fun c =>
      if i <? length c
      then let m' := store m p (Some (upd c i (Some v))) in Ok (Mem (blocks m') (S (made m')) (gone m'))
      else Undef).
  Definition put (m : memory) (p : option nat) (i : nat) (v : T) : outcome memory :=
    obind (load m p i) (fun _ => obind (deref m p) (fun c => Ok (store m p (Some (upd c i (Some v)))))).
  Definition destruct_ (m : memory) (p : option nat) (i : nat) : outcome memory :=
    obind (load m p i) (fun _ => obind (deref m p) (fun c =>
      let m' := store m p (Some (upd c i None)) in Ok (Mem (blocks m') (made m') (S (gone m'))))).

  (** [copy], lines 74-83: [n] elements from [i] on; [destroy], 93-100; the loop of [resize], 206-209. *)
  Fixpoint copy_loop (m : memory) (src dst : option nat) (i n : nat) : outcome memory :=
    match n with
    | 0 => Ok m
    | S n' => obind (load m src i) (fun v => obind (construct m dst i v) (fun m' => copy_loop m' src dst (S i) n'))
    end.
  Fixpoint destroy_loop (m : memory) (p : option nat) (i n : nat) : outcome memory :=
    match n with
    | 0 => Ok m
    | S n' => obind (destruct_ m p i) (fun m' => destroy_loop m' p (S i) n')
    end.
  Fixpoint fill_loop (m : memory) (p : option nat) (i n : nat) (v : T) : outcome memory :=
    match n with
    | 0 => Ok m
    | S n' => obind (construct m p i v) (fun m' => fill_loop m' p (S i) n' v)
    end.

  (** [init], lines 85-92; [allocSize], 73; [allocate], 102-107; [deallocate], 109-120. *)
  Definition oa_new : oarray := OA None 0 0 true.
  Definition alloc_size (n : nat) : nat := if n =? 0 then 1 else n * 2.
  Definition allocate (m : memory) (n : nat) : memory * option nat :=
    if n =? 0 then (m, None)
    else (Mem (blocks m ++ [Blk false (Some (repeat None n))]) (made m) (gone m), Some (length (blocks m))).
  Definition deallocate (m : memory) (a : oarray) : outcome memory :=
    match ptr a with
    | None => Ok m
    | Some b =>
        if owns a then
          match nth_error (blocks m) b with
          | Some (Blk false (Some _)) => Ok (store m (Some b) None)
          | _ => Undef
          end
        else Ok m
    end.

  (** [clear], lines 168-175. *)
  Definition oa_clear (m : memory) (a : oarray) : outcome (memory * oarray) :=
    obind (destroy_loop m (ptr a) 0 (osize a)) (fun m1 =>
      obind (deallocate m1 a) (fun m2 => Ok (m2, oa_new))).

  (** [reserve], lines 263-283. *)
  Definition oa_reserve (m : memory) (a : oarray) (n : nat) : outcome (memory * oarray) :=
    if ocap a <? n then
      let '(m1, s) := allocate m n in
      obind (copy_loop m1 (ptr a) s 0 (osize a)) (fun m2 =>
        obind (destroy_loop m2 (ptr a) 0 (osize a)) (fun m3 =>
          obind (deallocate m3 a) (fun m4 => Ok (m4, OA s (osize a) n true))))
    else Ok (m, a).
  Definition oa_room (m : memory) (a : oarray) : outcome (memory * oarray) :=
    if osize a =? ocap a then oa_reserve m a (alloc_size (osize a)) else Ok (m, a).

  (** [push_back], lines 243-258; [expand], 228-241, does the same and returns the new element. *)
  Definition oa_push (m : memory) (a : oarray) (v : T) : outcome (memory * oarray) :=
    obind (oa_room m a) (fun '(m1, a1) =>
      obind (construct m1 (ptr a1) (osize a1) v) (fun m2 => Ok (m2, OA (ptr a1) (S (osize a1)) (ocap a1) (owns a1)))).

  (** [push_back(a[i])] on [a] itself: the argument is a reference into the block as it was, read
      at line 252, after the growth. *)
  Definition oa_push_own (m : memory) (a : oarray) (i : nat) : outcome (memory * oarray) :=
    obind (oa_room m a) (fun '(m1, a1) =>
      obind (load m1 (ptr a) i) (fun v =>
        obind (construct m1 (ptr a1) (osize a1) v) (fun m2 => Ok (m2, OA (ptr a1) (S (osize a1)) (ocap a1) (owns a1))))).

  (** [pop_back], lines 177-182; below zero the size is negative and the element outside. *)
  Definition oa_pop (m : memory) (a : oarray) : outcome (memory * oarray) :=
    match osize a with
    | 0 => Undef
    | S n => obind (destruct_ m (ptr a) n) (fun m' => Ok (m', OA (ptr a) n (ocap a) (owns a)))
    end.

  (** [resize], lines 188-213. *)
  Definition oa_resize (m : memory) (a : oarray) (n : nat) (v : T) : outcome (memory * oarray) :=
    if n <? osize a then
      obind (destroy_loop m (ptr a) n (osize a - n)) (fun m' => Ok (m', OA (ptr a) n (ocap a) (owns a)))
    else
      obind (if osize a <? n then oa_reserve m a n else Ok (m, a)) (fun '(m1, a1) =>
        obind (fill_loop m1 (ptr a1) (osize a) (n - osize a) v) (fun m2 =>
          Ok (m2, OA (ptr a1) n (ocap a1) (owns a1)))).

  (** [copyFromArray], lines 454-459, and so [operator=], 62-66; [dflt] is [T()].  Assigning an
      array to itself is [a] = [other]. *)
  Definition oa_assign (m : memory) (a other : oarray) (dflt : T) : outcome (memory * oarray) :=
    obind (oa_resize m a (osize other) dflt) (fun '(m1, a1) =>
      obind (copy_loop m1 (ptr other) (ptr a1) 0 (osize other)) (fun m2 => Ok (m2, a1))).

  (** [initializeFromBuffer], lines 445-452, with memory of the caller's of which the first [n]
      cells hold elements; the caller has constructed them. *)
  Definition oa_buffer (m : memory) (a : oarray) (l : list T) (spare : nat) : outcome (memory * oarray) :=
    obind (oa_clear m a) (fun '(m1, _) =>
      Ok (Mem (blocks m1 ++ [Blk true (Some (map Some l ++ repeat None spare))]) (made m1 + length l) (gone m1),
          OA (Some (length (blocks m1))) (length l) (length l + spare) false)).

  (** The public operations on the arrays of a program, by their numbers; [operator[]], 152-164. *)
  Inductive pop_ := PPush (k : nat) (v : T) | PPop (k : nat) | PResize (k n : nat) (v : T) | PReserve (k n : nat)
                  | PClear (k : nat) | PAssign (k j : nat) (dflt : T) | PBuffer (k : nat) (l : list T) (spare : nat)
                  | PSet (k i : nat) (v : T) | PGet (k i : nat) | PSize (k : nat).
  Inductive pres := PUnit | PVal (v : T) | PNum (n : nat).
  Definition world := (memory * list oarray)%type.
  Definition on (w : world) (k : nat) (f : memory -> oarray -> outcome (memory * oarray)) : outcome (world * pres) :=
    match nth_error (snd w) k with
    | Some a => obind (f (fst w) a) (fun '(m, a') => Ok ((m, upd (snd w) k a'), PUnit))
    | None => Undef
    end.
  Definition pool_step (w : world) (o : pop_) : outcome (world * pres) :=
    match o with
    | PPush k v => on w k (fun m a => oa_push m a v)
    | PPop k => on w k oa_pop
    | PResize k n v => on w k (fun m a => oa_resize m a n v)
    | PReserve k n => on w k (fun m a => oa_reserve m a n)
    | PClear k => on w k oa_clear
    | PAssign k j d =>
        match nth_error (snd w) j with
        | Some b => on w k (fun m a => oa_assign m a b d)
        | None => Undef
        end
    | PBuffer k l spare => on w k (fun m a => oa_buffer m a l spare)
    | PSet k i v => on w k (fun m a => obind (put m (ptr a) i v) (fun m' => Ok (m', a)))
    | PGet k i => match nth_error (snd w) k with
                  | Some a => obind (load (fst w) (ptr a) i) (fun v => Ok (w, PVal v))
                  | None => Undef
                  end
    | PSize k => match nth_error (snd w) k with Some a => Ok (w, PNum (osize a)) | None => Undef end
    end.
  Fixpoint pool_run (w : world) (ops : list pop_) : outcome (world * list pres) :=
    match ops with
    | [] => Ok (w, [])
    | o :: r => obind (pool_step w o) (fun wr =>
                  obind (pool_run (fst wr) r) (fun tr => Ok (fst tr, snd wr :: snd tr)))
    end.
  (** [n] arrays just constructed, line 123, and the destructors of all of them, line 124. *)
  Definition pool_start (n : nat) : world := (Mem [] 0 0, repeat oa_new n).
  Fixpoint clear_all (m : memory) (l : list oarray) : outcome memory :=
    match l with
    | [] => Ok m
    | a :: r => obind (oa_clear m a) (fun '(m', _) => clear_all m' r)
    end.
End Pool.
Arguments block T : clear implicits.
Arguments memory T : clear implicits.
Arguments pop_ T : clear implicits.
Arguments pres T : clear implicits.
Arguments world T : clear implicits.
