(** * Model of BasicArray, searchsorted and interp2d

    Sources: trajopt_common/include/trajopt_common/basic_array.hpp 9-118,
    trajopt_common/include/trajopt_common/interpolation.hpp 9-51.

    int arguments are integers; their conversions to std::size_t are taken modulo 2^64.  Memory is
    unlimited: a requested size throws only when it came from a negative int product (at least 2^62 after
    the conversion; two ints have a product below 2^62 in magnitude).  [None] is a thrown std::out_of_range
    or std::length_error. *)
From Coq Require Import ZArith List Bool.
From Verif Require Import Num Common.
Import ListNotations.

Section Array.
  Local Open Scope Z_scope.
  Variable A : Type.
  (** the value-initialised element *)
  Variable dflt : A.

  Record array := { r_rows : Z; r_cols : Z; r_data : list A }.
  Definition size_t (z : Z) : Z := z mod 2 ^ 64.
  Definition obnd {X Y} (o : option X) (f : X -> option Y) : option Y := match o with Some x => f x | None => None end.

  (** std::vector::resize *)
  Definition vresize (n : Z) (d : list A) : option (list A) :=
    if 2 ^ 62 <=? n then None
    else Some (firstn (Z.to_nat n) d ++ repeat dflt (Z.to_nat n - length d)).
  (** BasicArray(nRow, nCol, data), 20: the pointer's elements *)
  Definition of_data (nr nc : Z) (d : list A) : array := {| r_rows := nr; r_cols := nc; r_data := d |}.
  Definition empty : array := {| r_rows := 0; r_cols := 0; r_data := [] |}.
  (** resize, 26-31 *)
  Definition resize (a : array) (nr nc : Z) : option array :=
    obnd (vresize (size_t (size_t nr * size_t nc)) (r_data a)) (fun d => Some {| r_rows := nr; r_cols := nc; r_data := d |}).
  (** the flat index of at and operator(), 83-99 *)
  Definition flat (a : array) (row col : Z) : Z := size_t (size_t (size_t row * size_t (r_cols a)) + size_t col).
  Definition at_ (a : array) (row col : Z) : option A :=
    let k := flat a row col in
    if k <? Z.of_nat (length (r_data a)) then nth_error (r_data a) (Z.to_nat k) else None.
  (** a(row, col) = v *)
  Fixpoint put (l : list A) (k : nat) (v : A) : list A :=
    match l, k with [], _ => [] | _ :: l, O => v :: l | x :: l, S k => x :: put l k v end.
  Definition set_at (a : array) (row col : Z) (v : A) : option array :=
    let k := flat a row col in
    if k <? Z.of_nat (length (r_data a)) then
      Some {| r_rows := r_rows a; r_cols := r_cols a; r_data := put (r_data a) (Z.to_nat k) v |}
    else None.

  (** for (int i = from; i < from + n; ++i) *)
  Definition range (from n : Z) : list Z := map (fun k => from + Z.of_nat k) (seq 0 (Z.to_nat n)).
  Definition for_ {S} (l : list Z) (s : S) (f : S -> Z -> option S) : option S :=
    fold_left (fun o i => obnd o (fun s => f s i)) l (Some s).
  (** the pushes or stores of a vector filled in order *)
  Definition collect (l : list Z) (f : Z -> option A) : option (list A) :=
    for_ l [] (fun out i => obnd (f i) (fun v => Some (out ++ [v]))).

  (** block, 36-48 *)
  Definition block (a : array) (startRow startCol nRow nCol : Z) : option array :=
    obnd (resize empty nRow nCol) (fun out =>
    for_ (range 0 nRow) out (fun out iRow =>
    for_ (range 0 nCol) out (fun out iCol =>
      obnd (at_ a (iRow + startRow) (iCol + startCol)) (fun v => set_at out iRow iCol v)))).
  (** rblock, 49-57; a negative count makes the vector constructor throw *)
  Definition rblock (a : array) (startRow startCol nCol : Z) : option (list A) :=
    if nCol <? 0 then None else collect (range 0 nCol) (fun iCol => at_ a startRow (iCol + startCol)).
  (** cblock, 58-66 *)
  Definition cblock (a : array) (startRow startCol nRow : Z) : option (list A) :=
    if nRow <? 0 then None else collect (range 0 nRow) (fun iRow => at_ a (iRow + startRow) startCol).
  (** middleRows, 67-79 *)
  Definition middleRows (a : array) (start n : Z) : option array :=
    obnd (resize empty n (r_cols a)) (fun out =>
    for_ (range start n) out (fun out i =>
    for_ (range 0 (r_cols a)) out (fun out j =>
      obnd (at_ a i j) (fun v => set_at out i j v)))).
  (** topRows and bottomRows, 80-81 *)
  Definition topRows (a : array) (n : Z) : option array := middleRows a 0 n.
  Definition bottomRows (a : array) (n : Z) : option array := middleRows a (r_rows a - n) n.
  (** col, 100-107, and row, 109-116 *)
  Definition col (a : array) (c : Z) : option (list A) := collect (range 0 (r_rows a)) (fun row => at_ a row c).
  Definition row (a : array) (r : Z) : option (list A) := collect (range 0 (r_cols a)) (fun col => at_ a r col).
End Array.
Arguments r_rows {A}. Arguments r_cols {A}. Arguments r_data {A}. Arguments of_data {A}. Arguments empty {A}.
Arguments vresize {A}. Arguments resize {A}. Arguments flat {A}. Arguments at_ {A}. Arguments put {A}. Arguments set_at {A}.
Arguments for_ {S}. Arguments collect {A}. Arguments block {A}. Arguments rblock {A}. Arguments cblock {A}. Arguments middleRows {A}.
Arguments topRows {A}. Arguments bottomRows {A}. Arguments col {A}. Arguments row {A}.

Section Interp.
  Context {T : Type} `{Num T}.
  Local Open Scope num_scope.

  (** the while loop of searchsorted, interpolation.hpp 21-22; [rest] is y from iY on *)
  Fixpoint advance (x : T) (rest : list T) (iY : nat) : list T * nat :=
    match rest with
    | y :: rest' => if y <? x then advance x rest' (S iY) else (rest, iY)
    | [] => ([], iY)
    end.
  (** searchsorted, 10-26 *)
  Fixpoint search_from (xs : list T) (rest : list T) (iY : nat) : list nat :=
    match xs with
    | [] => []
    | x :: xs => let (rest, iY) := advance x rest iY in iY :: search_from xs rest iY
    end.
  Definition searchsorted (x y : list T) : list nat := search_from x y 0.

  (** rows of a matrix times a number, and their sum *)
  Definition row_scale (r : list T) (t : T) : list T := map (fun a => a * t) r.
  Definition row_add (a b : list T) : list T := map (fun p => fst p + snd p) (combine a b).
  (** interp2d, 28-50; matrices are lists of rows; [Undef] is Eigen's row index assertion *)
  Definition interp_row (xOld : list T) (yOld : list (list T)) (x : T) (k : nat) : outcome (list T) :=
    let getrow i := match nth_error yOld i with Some r => Ok r | None => Undef end in
    if (k =? 0)%nat then getrow 0%nat
    else if (k =? length xOld)%nat then getrow (length xOld - 1)%nat
    else
      let x0 := nth (k - 1) xOld nzero in
      let x1 := nth k xOld nzero in
      let t := (x - x0) / (x1 - x0) in
      obind (getrow (k - 1)%nat) (fun y0 => obind (getrow k) (fun y1 => Ok (row_add (row_scale y0 (none_ - t)) (row_scale y1 t)))).
  Fixpoint oseq {B} (l : list (outcome B)) : outcome (list B) :=
    match l with [] => Ok [] | o :: l => obind o (fun b => obind (oseq l) (fun bs => Ok (b :: bs))) end.
  Definition interp2d (xNew xOld : list T) (yOld : list (list T)) : outcome (list (list T)) :=
    oseq (map (fun p => interp_row xOld yOld (fst p) (snd p)) (combine xNew (searchsorted xNew xOld))).
End Interp.
