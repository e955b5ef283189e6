(** * Programs with several sequences: what arrays should do *)
From Coq Require Import List Arith Bool.
From Verif Require Import Common PoolModel.
Import ListNotations.

Section Spec.
  Context {T : Type}.

  (** What an operation does to the sequences [ls] of a program: only the one it names changes. *)
  Definition becomes (ls : list (list T)) (k : nat) (l' : list T) (ls' : list (list T)) : Prop :=
    length ls' = length ls /\ nth_error ls' k = Some l' /\ forall j, j <> k -> nth_error ls' j = nth_error ls j.
  Definition pdoes (o : pop_ T) (ls : list (list T)) (r : pres T) (ls' : list (list T)) : Prop :=
    match o with
    | PPush k v => r = PUnit /\ exists l, nth_error ls k = Some l /\ becomes ls k (l ++ [v]) ls'
    | PPop k => r = PUnit /\ exists l v, nth_error ls k = Some (l ++ [v]) /\ becomes ls k l ls'
    | PResize k n v => r = PUnit /\ exists l, nth_error ls k = Some l /\
                       becomes ls k (firstn n l ++ repeat v (n - length l)) ls'
    | PReserve k _ => r = PUnit /\ ls' = ls
    | PClear k => r = PUnit /\ becomes ls k [] ls'
    | PAssign k j _ => r = PUnit /\ exists l, nth_error ls j = Some l /\ becomes ls k l ls'
    | PBuffer k l _ => r = PUnit /\ becomes ls k l ls'
    | PSet k i v => r = PUnit /\ exists a x b, nth_error ls k = Some (a ++ x :: b) /\ length a = i /\
                                               becomes ls k (a ++ v :: b) ls'
    | PGet k i => ls' = ls /\ exists l x, nth_error ls k = Some l /\ nth_error l i = Some x /\ r = PVal x
    | PSize k => ls' = ls /\ exists l, nth_error ls k = Some l /\ r = PNum (length l)
    end.

  (** What an operation may be asked for: an array there is, within its bounds. *)
  Definition pallowed (o : pop_ T) (ls : list (list T)) : Prop :=
    match o with
    | PPush k _ | PResize k _ _ | PReserve k _ | PClear k | PBuffer k _ _ | PSize k => k < length ls
    | PPop k => exists l, nth_error ls k = Some l /\ l <> []
    | PAssign k j _ => k < length ls /\ j < length ls
    | PSet k i _ | PGet k i => exists l, nth_error ls k = Some l /\ i < length l
    end.
  Fixpoint pall (ops : list (pop_ T)) (ls : list (list T)) : Prop :=
    match ops with
    | [] => True
    | o :: rest => pallowed o ls /\ forall r ls', pdoes o ls r ls' -> pall rest ls'
    end.
  Fixpoint pgives (ops : list (pop_ T)) (ls : list (list T)) (rs : list (pres T)) (ls' : list (list T)) : Prop :=
    match ops, rs with
    | [], [] => ls' = ls
    | o :: ops', r :: rs' => exists ms, pdoes o ls r ms /\ pgives ops' ms rs' ls'
    | _, _ => False
    end.

  (** The arrays of a program read as the sequences [ls]. *)
  Definition reads (w : world T) (ls : list (list T)) : Prop :=
    length (snd w) = length ls /\
    forall k l, nth_error ls k = Some l ->
      pool_step w (PSize k) = Ok (w, PNum (length l)) /\
      forall i x, nth_error l i = Some x -> pool_step w (PGet k i) = Ok (w, PVal x).

  (** Everything the allocator gave has been given back, and nothing of the caller's has. *)
  Definition all_freed (m : memory T) : Prop :=
    forall b f c, nth_error (blocks m) b = Some (Blk f c) -> if f then c <> None else c = None.
  Definition assigns (o : pop_ T) : Prop := match o with PAssign _ _ _ => True | _ => False end.
End Spec.
