(** * What the edge of the greatest angle should be *)
From Coq Require Import List Arith Bool ZArith QArith.
From Verif Require Import Common WideSpec.
Import ListNotations.

(** The cotangents: the rationals and the two infinities. *)
Inductive ext := MInf | Fin (q : Q) | PInf.
Definition elt (x y : ext) : Prop :=
  match x, y with
  | MInf, MInf => False
  | MInf, _ => True
  | Fin a, Fin b => (a < b)%Q
  | Fin _, PInf => True
  | _, _ => False
  end.
Definition value (nd : Z * Z) : ext :=
  let (n, d) := nd in if (d =? 0)%Z then (if (n <? 0)%Z then MInf else PInf) else Fin (quotient n d).
Definition fits (nd : Z * Z) : Prop := (Z.abs (fst nd) < 2 ^ 63 /\ Z.abs (snd nd) < 2 ^ 63)%Z.
