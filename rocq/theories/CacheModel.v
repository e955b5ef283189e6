(** * Model of trajopt_common::Cache (trajopt_common/include/trajopt_common/cache.h)

    A pooled object is identified with its slot: ptr_to_slot_ is the inverse of pool_, which only
    grows.  A pointer passed to put() is [PNull], [PForeign] (not from this pool) or [PSlot s].
    The unordered_map key_to_slot_ is an association list with at most one entry per key.  The
    slot-indexed vectors are functions; an access at or beyond capacity_ is [Undef].  slot_it_ is
    not stored: erasing or splicing through slot_it_[slot] is removal of [slot] from lru_, and
    [Undef] if it is not there (invalid iterator).  The key type has a decidable equality that
    agrees with KeyEqual and Hash.  Allocation failure and size_t overflow are not modelled. *)
From Coq Require Import List Arith Bool.
From Verif Require Import Common.
Import ListNotations.

Section Cache.
  Context {K : Type}.
  Variable keqb : K -> K -> bool.

  Record cache := {
    c_cap : nat;
    c_map : list (K * nat);           (* key_to_slot_ *)
    c_key : nat -> option K;          (* slot_key_, None = default constructed *)
    c_assigned : nat -> bool;
    c_out : nat -> bool;              (* checked_out_ *)
    c_lru : list nat;                 (* front = most recently used *)
    c_free : list nat                 (* free_slots_, head = back of the vector *)
  }.

  Definition fupd {A} (f : nat -> A) (i : nat) (a : A) : nat -> A := fun j => if j =? i then a else f j.

  Fixpoint kfind (k : K) (m : list (K * nat)) : option nat :=
    match m with [] => None | (k', s) :: r => if keqb k k' then Some s else kfind k r end.
  Definition kerase (k : K) (m : list (K * nat)) : list (K * nat) := filter (fun e => negb (keqb k (fst e))) m.
  Definition kset (k : K) (s : nat) (m : list (K * nat)) : list (K * nat) := (k, s) :: kerase k m.

  Fixpoint remove_first (s : nat) (l : list nat) : list nat :=
    match l with [] => [] | a :: r => if a =? s then r else a :: remove_first s r end.
  Definition memb (s : nat) (l : list nat) : bool := existsb (Nat.eqb s) l.

  (** constructor, lines 40-56: free_slots_ = 0, 1, ..., capacity-1, the back is capacity-1 *)
  Definition cache_new (capacity : nat) : cache :=
    let cap := if capacity =? 0 then 1 else capacity in
    {| c_cap := cap; c_map := []; c_key := fun _ => None; c_assigned := fun _ => false;
       c_out := fun _ => false; c_lru := []; c_free := rev (seq 0 cap) |}.

  Definition with_lru (c : cache) (l : list nat) : cache :=
    {| c_cap := c_cap c; c_map := c_map c; c_key := c_key c; c_assigned := c_assigned c; c_out := c_out c;
       c_lru := l; c_free := c_free c |}.
  Definition with_free (c : cache) (l : list nat) : cache :=
    {| c_cap := c_cap c; c_map := c_map c; c_key := c_key c; c_assigned := c_assigned c; c_out := c_out c;
       c_lru := c_lru c; c_free := l |}.
  Definition with_map (c : cache) (m : list (K * nat)) : cache :=
    {| c_cap := c_cap c; c_map := m; c_key := c_key c; c_assigned := c_assigned c; c_out := c_out c;
       c_lru := c_lru c; c_free := c_free c |}.
  Definition with_key (c : cache) (f : nat -> option K) : cache :=
    {| c_cap := c_cap c; c_map := c_map c; c_key := f; c_assigned := c_assigned c; c_out := c_out c;
       c_lru := c_lru c; c_free := c_free c |}.
  Definition with_assigned (c : cache) (f : nat -> bool) : cache :=
    {| c_cap := c_cap c; c_map := c_map c; c_key := c_key c; c_assigned := f; c_out := c_out c;
       c_lru := c_lru c; c_free := c_free c |}.
  Definition with_out (c : cache) (f : nat -> bool) : cache :=
    {| c_cap := c_cap c; c_map := c_map c; c_key := c_key c; c_assigned := c_assigned c; c_out := f;
       c_lru := c_lru c; c_free := c_free c |}.

  (** touch, lines 199-206 *)
  Definition touch (s : nat) (c : cache) : outcome cache :=
    if negb (s <? c_cap c) then Undef
    else if negb (c_assigned c s) then Ok c
    else if memb s (c_lru c) then Ok (with_lru c (s :: remove_first s (c_lru c))) else Undef.
  (** removeFromLru, lines 208-214 *)
  Definition removeFromLru (s : nat) (c : cache) : outcome cache :=
    if negb (s <? c_cap c) then Undef
    else if negb (c_assigned c s) then Ok c
    else if memb s (c_lru c) then Ok (with_lru c (remove_first s (c_lru c))) else Undef.
  (** removeFromFreeSlots, lines 216-221: std::find starts at the front, the end of our list *)
  Definition removeFromFreeSlots (s : nat) (c : cache) : cache :=
    with_free c (rev (remove_first s (rev (c_free c)))).

  (** the common part of evictSlot and put: drop the mapping of an assigned slot *)
  Definition dropMapping (s : nat) (c : cache) : outcome cache :=
    match c_key c s with
    | None => Undef
    | Some k =>
        obind (removeFromLru s (with_map c (kerase k (c_map c)))) (fun c =>
        let c := with_assigned c (fupd (c_assigned c) s false) in
        Ok (if c_out c s then c else with_free c (s :: c_free c)))
    end.
  (** evictSlot, lines 225-238 *)
  Definition evictSlot (s : nat) (c : cache) : outcome cache :=
    if negb (s <? c_cap c) then Undef
    else if negb (c_assigned c s) then Ok c else dropMapping s c.

  (** growPool, lines 175-196 *)
  Definition growPool (n : nat) (c : cache) : cache :=
    if n <=? c_cap c then c
    else {| c_cap := n; c_map := c_map c; c_key := c_key c;
            c_assigned := fun s => if s <? c_cap c then c_assigned c s else false;
            c_out := fun s => if s <? c_cap c then c_out c s else false;
            c_lru := c_lru c; c_free := rev (seq (c_cap c) (n - c_cap c)) ++ c_free c |}.

  (** the pop loops of acquireSlot, lines 251-263 and 283-292 *)
  Fixpoint popFree (l : list nat) (c : cache) : option nat * list nat :=
    match l with
    | [] => (None, [])
    | s :: r => if negb (c_assigned c s) && negb (c_out c s) then (Some s, r) else popFree r c
    end.

  (** acquireSlot, lines 246-303; [None] is kNpos *)
  Definition acquireSlot (c : cache) : outcome (cache * option nat) :=
    let (cand, rest) := popFree (c_free c) c in
    let c := with_free c rest in
    let mark s c := Ok (with_out c (fupd (c_out c) s true), Some s) in
    match cand with
    | Some s => mark s c
    | None =>
        match rev (c_lru c) with
        | s :: _ => obind (evictSlot s c) (mark s)
        | [] =>
            let c := growPool (if c_cap c =? 0 then 1 else c_cap c * 2) c in
            let (cand, rest) := popFree (c_free c) c in
            let c := with_free c rest in
            match cand with Some s => mark s c | None => Ok (c, None) end
        end
    end.

  (** get, lines 59-68 *)
  Definition cget (k : K) (c : cache) : outcome (cache * option nat) :=
    match kfind k (c_map c) with
    | None => Ok (c, None)
    | Some s => obind (touch s c) (fun c => Ok (c, Some s))
    end.

  (** getOrAcquire, lines 74-92 *)
  Definition cgetOrAcquire (k : K) (c : cache) : outcome (cache * (option nat * bool)) :=
    match kfind k (c_map c) with
    | Some s => obind (touch s c) (fun c => Ok (c, (Some s, true)))
    | None => obind (acquireSlot c) (fun '(c, s) => Ok (c, (s, false)))
    end.

  Inductive ptr := PNull | PForeign | PSlot (s : nat).

  (** put, lines 99-153.  [debug] : assertions enabled (line 107) *)
  Definition cput (debug : bool) (k : K) (p : ptr) (c : cache) : outcome (cache * bool) :=
    match p with
    | PNull => Ok (c, false)
    | PForeign => if debug then Undef else Ok (c, false)
    | PSlot s =>
        if negb (s <? c_cap c) then (if debug then Undef else Ok (c, false))
        else
          obind (match kfind k (c_map c) with
                 | Some s' => if s' =? s then Ok c else evictSlot s' c
                 | None => Ok c
                 end) (fun c =>
          obind (if c_assigned c s
                 then match c_key c s with
                      | None => Undef
                      | Some k' => if keqb k' k then Ok c else dropMapping s c
                      end
                 else Ok c) (fun c =>
          let c := with_out c (fupd (c_out c) s false) in
          let c := removeFromFreeSlots s c in
          let c := with_key c (fupd (c_key c) s (Some k)) in
          let c := with_map c (kset k s (c_map c)) in
          obind (if negb (c_assigned c s)
                 then Ok (with_assigned (with_lru c (s :: c_lru c)) (fupd (c_assigned c) s true))
                 else touch s c) (fun c => Ok (c, true))))
    end.

  (** erase, lines 156-163 *)
  Definition cerase (k : K) (c : cache) : outcome cache :=
    match kfind k (c_map c) with None => Ok c | Some s => evictSlot s c end.

  (** size, line 167 *)
  Definition csize (c : cache) : nat := length (c_map c).

  (** ** Histories *)
  Inductive cop := CGet (k : K) | CAcquire (k : K) | CPut (k : K) (p : ptr) | CErase (k : K).
  Inductive cres := RGet (p : option nat) | RAcquire (p : option nat) (hit : bool) | RPut (ok : bool) | RErase.

  Definition cstep (debug : bool) (c : cache) (o : cop) : outcome (cache * cres) :=
    match o with
    | CGet k => obind (cget k c) (fun '(c, p) => Ok (c, RGet p))
    | CAcquire k => obind (cgetOrAcquire k c) (fun '(c, (p, h)) => Ok (c, RAcquire p h))
    | CPut k p => obind (cput debug k p c) (fun '(c, b) => Ok (c, RPut b))
    | CErase k => obind (cerase k c) (fun c => Ok (c, RErase))
    end.
  (** results are listed newest first *)
  Fixpoint crun (debug : bool) (c : cache) (h : list (cop * cres)) (os : list cop) : outcome (cache * list (cop * cres)) :=
    match os with
    | [] => Ok (c, h)
    | o :: os => obind (cstep debug c o) (fun '(c, r) => crun debug c ((o, r) :: h) os)
    end.
End Cache.
Arguments cache : clear implicits.
Arguments cop : clear implicits.
