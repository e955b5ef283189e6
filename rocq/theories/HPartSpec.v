(** * What taking a part out should do *)
From Coq Require Import List Arith Bool.
From Verif Require Import Common HEdgeModel HEdgeSpec HPartModel.
Import ListNotations.

(** A stack of groups: a kept vertex and vertices to remove. *)
Definition stack_of (gs : list (nat * list nat)) : list (option nat) :=
  flat_map (fun g => Some (fst g) :: map Some (snd g) ++ [None]) gs.
(** The vertices that edges lead to from the vertices [ws]. *)
Inductive reach (h : hull) (f : nat -> list nat) (ws : list nat) : nat -> Prop :=
| reach_start w : In w ws -> reach h f ws w
| reach_step u e t : reach h f ws u -> In e (f u) -> tg h e = Some t -> reach h f ws t.
