(** * Sorting and searching in the array of the bundled convex hull

    Model of [btAlignedObjectArray<T>], /repo/trajopt_ext/vhacd/include/vhacd/inc/btAlignedObjectArray.h lines 291-447: quickSort,
    heapSort, findBinarySearch, findLinearSearch, remove.  The array is the list of the elements [m_data[0]] to [m_data[m_size - 1]];
    reading or writing anything else is undefined.  Simplified: indices are integers that do not overflow, elements are plain
    values, and the comparison has no effects. *)
From Coq Require Import List ZArith Bool Arith.
From Verif Require Import Common.
Import ListNotations.
Local Open Scope Z_scope.

Section Sort.
  Context {T : Type}.
  Variable lt : T -> T -> bool.

  (** m_data[i], read and written *)
  Definition rd (a : list T) (i : Z) : outcome T :=
    if i <? 0 then Undef else match nth_error a (Z.to_nat i) with Some v => Ok v | None => Undef end.
  Definition wr (a : list T) (i : Z) (v : T) : outcome (list T) :=
    if (0 <=? i) && (i <? Z.of_nat (length a)) then Ok (firstn (Z.to_nat i) a ++ v :: skipn (S (Z.to_nat i)) a) else Undef.

  (** swap, lines 362-374 *)
  Definition swp (a : list T) (i j : Z) : outcome (list T) :=
    obind (rd a i) (fun t => obind (rd a j) (fun u => obind (wr a i u) (fun a' => wr a' j t))).

  (** the two inner loops, lines 301-304 *)
  Fixpoint scan_up (fuel : nat) (a : list T) (x : T) (i : Z) : outcome Z :=
    match fuel with O => NoFuel | S k => obind (rd a i) (fun v => if lt v x then scan_up k a x (i + 1) else Ok i) end.
  Fixpoint scan_down (fuel : nat) (a : list T) (x : T) (j : Z) : outcome Z :=
    match fuel with O => NoFuel | S k => obind (rd a j) (fun v => if lt x v then scan_down k a x (j - 1) else Ok j) end.

  (** the loop of the partition, lines 299-311 *)
  Fixpoint partition (fuel : nat) (a : list T) (x : T) (i j : Z) : outcome (list T * Z * Z) :=
    match fuel with
    | O => NoFuel
    | S k =>
      obind (scan_up fuel a x i) (fun i => obind (scan_down fuel a x j) (fun j =>
        obind (if i <=? j then obind (swp a i j) (fun a => Ok (a, i + 1, j - 1)) else Ok (a, i, j)) (fun '(a, i, j) =>
          if i <=? j then partition k a x i j else Ok (a, i, j))))
    end.

  (** quickSortInternal, lines 290-318 (the quotient of C rounds towards zero), and quickSort, 320-328 *)
  Fixpoint quick_internal (fuel : nat) (a : list T) (lo hi : Z) : outcome (list T) :=
    match fuel with
    | O => NoFuel
    | S k =>
      obind (rd a (Z.quot (lo + hi) 2)) (fun x => obind (partition fuel a x lo hi) (fun '(a, i, j) =>
        obind (if lo <? j then quick_internal k a lo j else Ok a) (fun a =>
          if i <? hi then quick_internal k a i hi else Ok a)))
    end.
  Definition quick_sort (fuel : nat) (a : list T) : outcome (list T) :=
    if 1 <? Z.of_nat (length a) then quick_internal fuel a 0 (Z.of_nat (length a) - 1) else Ok a.

  (** downHeap, lines 331-360: the loop, 338-358, gives the array and the place for temp *)
  Fixpoint down_loop (fuel : nat) (a : list T) (temp : T) (k n : Z) : outcome (list T * Z) :=
    match fuel with
    | O => NoFuel
    | S f =>
      if k <=? Z.quot n 2 then
        let child := 2 * k in
        obind (if child <? n then obind (rd a (child - 1)) (fun u => obind (rd a child) (fun v => Ok (if lt u v then child + 1 else child))) else Ok child)
          (fun child => obind (rd a (child - 1)) (fun c =>
            if lt temp c then obind (wr a (k - 1) c) (fun a => down_loop f a temp child n) else Ok (a, k)))
      else Ok (a, k)
    end.
  Definition down_heap (fuel : nat) (a : list T) (k n : Z) : outcome (list T) :=
    obind (rd a (k - 1)) (fun temp => obind (down_loop fuel a temp k n) (fun '(a, k) => wr a (k - 1) temp)).

  (** heapSort, lines 376-396: the first loop, 382-385, and the second, 388-395 *)
  Fixpoint heapify (fuel : nat) (a : list T) (k n : Z) : outcome (list T) :=
    match fuel with
    | O => NoFuel
    | S f => if 0 <? k then obind (down_heap fuel a k n) (fun a => heapify f a (k - 1) n) else Ok a
    end.
  Fixpoint extract (fuel : nat) (a : list T) (n : Z) : outcome (list T) :=
    match fuel with
    | O => NoFuel
    | S f => if 1 <=? n then obind (swp a 0 (n - 1)) (fun a => obind (down_heap fuel a 1 (n - 1)) (fun a => extract f a (n - 1))) else Ok a
    end.
  Definition heap_sort (fuel : nat) (a : list T) : outcome (list T) :=
    let n := Z.of_nat (length a) in obind (heapify fuel a (Z.quot n 2) n) (fun a => extract fuel a n).

  (** findBinarySearch, lines 399-416, with [key > m] for [m < key] *)
  Fixpoint bin_loop (fuel : nat) (a : list T) (key : T) (first last : Z) : outcome Z :=
    match fuel with
    | O => NoFuel
    | S f =>
      if first <=? last then
        let mid := Z.quot (first + last) 2 in
        obind (rd a mid) (fun m => if lt m key then bin_loop f a key (mid + 1) last else if lt key m then bin_loop f a key first (mid - 1) else Ok mid)
      else Ok (Z.of_nat (length a))
    end.
  Definition find_binary (fuel : nat) (a : list T) (key : T) : outcome Z := bin_loop fuel a key 0 (Z.of_nat (length a) - 1).

  Variable eqb : T -> T -> bool.
  (** findLinearSearch, lines 418-432 *)
  Fixpoint lin_loop (fuel : nat) (a : list T) (key : T) (i : Z) : outcome Z :=
    match fuel with
    | O => NoFuel
    | S f => if i <? Z.of_nat (length a) then obind (rd a i) (fun v => if eqb v key then Ok i else lin_loop f a key (i + 1)) else Ok (Z.of_nat (length a))
    end.
  (** remove, lines 434-442; pop_back, 177-182 *)
  Definition remove (fuel : nat) (a : list T) (key : T) : outcome (list T) :=
    obind (lin_loop fuel a key 0) (fun i =>
      if i <? Z.of_nat (length a) then obind (swp a i (Z.of_nat (length a) - 1)) (fun a => Ok (removelast a)) else Ok a).
End Sort.

(** Point32 of the convex hull with its index, btConvexHullComputer.cpp 76-88, and pointCmp, 1804-1807 *)
Record point32 := P32 { px : Z; py : Z; pz : Z; pindex : Z }.
Definition point_cmp (p q : point32) : bool :=
  (py p <? py q) || ((py p =? py q) && ((px p <? px q) || ((px p =? px q) && (pz p <? pz q)))).
