(** * Specification vocabulary for the cache (C47, C48): histories and the usage pattern *)
From Coq Require Import List Arith Bool.
From Verif Require Import Common CacheModel.
Import ListNotations.

Section Spec.
  Context {K : Type}.
  Variable keqb : K -> K -> bool.

  (** pointer given in the latest successful put for [k]; histories are newest first *)
  Fixpoint last_put (h : list (cop K * cres)) (k : K) : option nat :=
    match h with
    | [] => None
    | (CPut k' (PSlot s), RPut true) :: r => if keqb k k' then Some s else last_put r k
    | _ :: r => last_put r k
    end.
  (** acquired on a miss and not put back since *)
  Fixpoint held (h : list (cop K * cres)) (s : nat) : bool :=
    match h with
    | [] => false
    | (CPut _ (PSlot s'), RPut true) :: r => if s =? s' then false else held r s
    | (CAcquire _, RAcquire (Some s') false) :: r => if s =? s' then true else held r s
    | _ :: r => held r s
    end.

  (** distinct keys, most recently used first, of a newest-first list of uses *)
  Fixpoint recent (ks : list K) : list K :=
    match ks with [] => [] | k :: r => k :: filter (fun k' => negb (keqb k k')) (recent r) end.

  (** The usage pattern of cache.h 21-24: ask, compute on a miss, put.  [heap] is the content of
      the pooled objects, [f] the computation. *)
  Definition cmemo {V} (f : K -> V) (k : K) (st : cache K * (nat -> V)) : outcome (cache K * (nat -> V) * (nat * V)) :=
    let (c, heap) := st in
    obind (cgetOrAcquire keqb k c) (fun '(c, (p, hit)) =>
      match p with
      | None => Undef
      | Some s =>
          if hit then Ok (c, heap, (s, heap s))
          else let heap := fupd heap s (f k) in
               obind (cput keqb true k (PSlot s) c) (fun '(c, _) => Ok (c, heap, (s, heap s)))
      end).
  Fixpoint cmemos {V} (f : K -> V) (ks : list K) (st : cache K * (nat -> V)) : outcome (cache K * (nat -> V) * list (nat * V)) :=
    match ks with
    | [] => Ok (fst st, snd st, [])
    | k :: r => obind (cmemo f k st) (fun '(c, heap, v) =>
                obind (cmemos f r (c, heap)) (fun '(c, heap, vs) => Ok (c, heap, v :: vs)))
    end.
End Spec.
