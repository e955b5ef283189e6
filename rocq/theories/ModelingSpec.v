(** Vocabulary for the modelling-layer theorems: feasibility of auxiliary variables and the exact
    value a convex objective is meant to represent. *)
From Coq Require Import List ZArith Bool Arith Reals.
From Verif Require Import Num NumFacts RSums Common ScoExprModel ModelingModel.
Import ListNotations.
Local Open Scope R_scope.

Definition in_bnd (b : option R * option R) (v : R) : Prop :=
  match fst b with Some l => l <= v | None => True end /\ match snd b with Some u => v <= u | None => True end.

(** the expression only mentions variables below [n] *)
Definition aff_in (n : nat) (a : aff R) : Prop := wf_aff a /\ Forall (fun v => (v < n)%nat) (a_vars a).
Definition quad_in (n : nat) (q : quad R) : Prop :=
  wf_quad q /\ aff_in n (q_aff q) /\ Forall (fun v => (v < n)%nat) (q_vars1 q) /\ Forall (fun v => (v < n)%nat) (q_vars2 q).

(** A point satisfies what a ConvexObjective added to the model: the bounds of the variables from
    index [n] on, its equalities and its inequalities. *)
Definition obj_feasible (n : nat) (s : cstate R) (pt : list R) : Prop :=
  (forall i b, (n <= i)%nat -> nth_error (fst s) i = Some b -> in_bnd b (nth i pt 0)) /\
  Forall (fun a => aff_value a pt = 0) (co_eqs (snd s)) /\
  Forall (fun a => aff_value a pt <= 0) (co_ineqs (snd s)).

(** operations whose expressions are over the first [n] variables, with non-negative coefficients;
    addMax is excluded (see C36) *)
Definition op_ok (n : nat) (o : op R) : Prop :=
  match o with
  | OpAff a => aff_in n a
  | OpQuad q => quad_in n q
  | OpHinge a c | OpAbs a c => aff_in n a /\ 0 <= c
  | OpHinges es | OpL1 es | OpL2 es => Forall (aff_in n) es
  | OpMax _ => False
  end.
(** the term each operation stands for *)
Definition op_exact (x : list R) (o : op R) : R :=
  match o with
  | OpAff a => aff_value a x
  | OpQuad q => quad_value q x
  | OpHinge a c => c * Rmax (aff_value a x) 0
  | OpAbs a c => c * Rabs (aff_value a x)
  | OpHinges es => rsum (fun a => Rmax (aff_value a x) 0) es
  | OpL1 es => rsum (fun a => Rabs (aff_value a x)) es
  | OpL2 es => rsum (fun a => aff_value a x * aff_value a x) es
  | OpMax _ => 0
  end.

(** [v] is the attained minimum of [g] over the points of length [len] that extend [x] and satisfy [P] *)
Definition min_over_aux (len : nat) (P : list R -> Prop) (g : list R -> R) (x : list R) (v : R) : Prop :=
  (forall z, (length x + length z)%nat = len -> P (x ++ z) -> v <= g (x ++ z)) /\
  (exists z, (length x + length z)%nat = len /\ P (x ++ z) /\ g (x ++ z) = v).
