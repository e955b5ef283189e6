(** * What is expected of a run on a joint space problem *)
From Coq Require Import List Arith Reals.
From Verif Require Import Num RSums IfoptModel IfoptProofs NodesModel JointCntModel JointCntProps QpModel QpCaseProps JointRunModel.
Import ListNotations.
Local Open Scope R_scope.

(** the coefficient of joint [j]: one for all, or one per joint *)
Definition weight (default : R) (coeffs : list R) (j : nat) : R :=
  match coeffs with [] => default | [c] => c | _ => nth j coeffs 0 end.
Definition usual (k : kind) : R := match k with Vel => 5 | _ => 1 end.
(** how far [v] lies outside [b] *)
Definition dist (b : bnd R) (v : R) : R :=
  Rmax 0 (Rmax match b_lo b with Some l => l - v | None => 0 end match b_hi b with Some u => v - u | None => 0 end).
(** what a term asks for at the variables [x]: coefficients and distances from what is asked for.  Velocities, accelerations and
    jerks are differences of order 1, 2 and 3 of consecutive positions. *)
Definition asks (x : list R) (q : request) : list (R * R) :=
  match q with
  | RDiff k targets vs coeffs =>
      flat_map (fun i => map (fun j => (weight (usual k) coeffs j, Rabs (fdiff (order k) (joint vs x j) (base k (length vs) i) - nth j targets 0)))
                             (seq 0 (length targets))) (seq 0 match k with Vel => length vs - 1 | _ => length vs end)
  | RTarget targets v coeffs => map (fun j => (weight 1 coeffs j, Rabs (nth (v_index v + j) x 0 - nth j targets 0))) (seq 0 (length targets))
  | RBounds bs v coeffs _ => map (fun j => (weight 1 coeffs j, dist (nth j bs free) (nth (v_index v + j) x 0))) (seq 0 (length bs))
  end.

(** the variables a term refers to exist, and there is something to ask for *)
Definition placed_in (n : nat) (q : request) : Prop :=
  match q with
  | RDiff k targets vs coeffs => Forall (fun v => v_size v = length targets /\ (v_index v + v_size v <= n)%nat) vs /\ increasing vs
  | RTarget targets v coeffs => v_size v = length targets /\ (v_index v + v_size v <= n)%nat
  | RBounds bs v coeffs _ => v_size v = length bs /\ (v_index v + v_size v <= n)%nat /\ Forall proper bs
  end.
(** bounds on joints: each must be finite on one side, ranges must be split; a squared cost wants exact values *)
Definition supported (rq : request * role) : Prop :=
  match rq with
  | (RBounds bs v coeffs split, AsConstraint) => Forall (fun b => type_of b <> Unbounded /\ (split = false -> type_of b <> RangeBound)) bs
  | (RBounds bs v coeffs split, AsCost PSquared) => Forall (fun b => exists t, b = at_value t) bs
  | _ => True
  end.
Definition well_put (n : nat) (l : list (request * role)) : Prop := Forall (fun rq => placed_in n (fst rq) /\ supported rq) l.
Definition coeffs_of (q : request) : list R := match q with RDiff _ _ _ c | RTarget _ _ c | RBounds _ _ c _ => c end.
(** what the constructors and addCostSet() accept *)
Definition acceptable (rq : request * role) : Prop :=
  Forall (fun w => 0 < w) (coeffs_of (fst rq)) /\
  let sizes n := length (coeffs_of (fst rq)) = n \/ (length (coeffs_of (fst rq)) <= 1)%nat in
  match rq with
  | (RDiff k targets vs coeffs, r) => targets <> [] /\ (min_vars k <= length vs)%nat /\ sizes (length targets) /\ r <> AsCost PHinge
  | (RTarget targets v coeffs, r) => targets <> [] /\ coeffs <> [] /\ sizes (length targets) /\ r <> AsCost PHinge
  | (RBounds bs v coeffs split, r) => bs <> [] /\ (if split then length coeffs = length bs else sizes (length bs)) /\
      Forall (fun b => match r with
        | AsConstraint => True
        | AsCost PHinge => type_of b = LowerBound \/ type_of b = UpperBound \/ (type_of b = RangeBound /\ split = true)
        | AsCost _ => type_of b = Equality
        end) bs
  end.
(** coefficients of constraints at least one, those of absolute and hinge costs at least 1e-7 *)
Definition weighty (rq : request * role) : Prop :=
  match snd rq with
  | AsConstraint => Forall (fun w => 1 <= w) (coeffs_of (fst rq))
  | AsCost PSquared => True
  | AsCost _ => Forall (fun w => / 10 ^ 7 <= w) (coeffs_of (fst rq))
  end.

Definition constraints (l : list (request * role)) : list request :=
  flat_map (fun rq => match snd rq with AsConstraint => [fst rq] | _ => [] end) l.
Definition squares (l : list (request * role)) : list request :=
  flat_map (fun rq => match snd rq with AsCost PSquared => [fst rq] | _ => [] end) l.
Definition others (l : list (request * role)) : list request :=
  flat_map (fun rq => match snd rq with AsCost PAbsolute | AsCost PHinge => [fst rq] | _ => [] end) l.
Definition total (f : R -> R -> R) (x : list R) (q : request) : R := rsum (fun p => f (fst p) (snd p)) (asks x q).
(** the objective: squared costs, absolute and hinge costs, constraints times their merit coefficients; the second form is the one the
    solver reports, without the coefficients in the last two parts *)
Definition merit (l : list (request * role)) (mu x : list R) : R :=
  rsum (total (fun w d => w * d ^ 2) x) (squares l) + rsum (total (fun w d => w * d) x) (others l) +
  rsum (fun mq => fst mq * total (fun w d => w * d) x (snd mq)) (combine mu (constraints l)).
Definition reported_merit (l : list (request * role)) (mu x : list R) : R :=
  rsum (total (fun w d => w * d ^ 2) x) (squares l) + rsum (total (fun _ d => d) x) (others l) +
  rsum (fun mq => fst mq * total (fun _ d => d) x (snd mq)) (combine mu (constraints l)).
(** every joint is less than [tol] away from what is asked for *)
Definition met (tol : R) (x : list R) (q : request) : Prop := Forall (fun p => snd p < tol) (asks x q).
