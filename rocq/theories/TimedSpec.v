(** * What is expected of ConstructProblem and OptimizeProblem for joint space problems with time

    In terms of the plan and of trajectories [X] (step, column): the columns below the number of joints are the joints, the next one is
    the inverse of the time step that leads to the step. *)
From Coq Require Import List ZArith Bool Arith Reals.
From Verif Require Import Num RSums ScoOptModel ArrayModel TrajCostModel TrajCostProps TrajoptModel HatchProps SolveSpec PlanModel PlanSpec TimedModel.
Import ListNotations.
Local Open Scope R_scope.

(** the joint part of a timed plan *)
Definition base (p : tplan) : plan :=
  {| pl_steps := tp_steps p; pl_limits := tp_limits p; pl_init := tp_init p; pl_data := tp_data p; pl_now := tp_now p;
     pl_fixed_steps := tp_fixed_steps p; pl_fixed_dofs := tp_fixed_dofs p; pl_costs := []; pl_cnts := [] |}.

Section Parts.
  Context (m : Z) (d : nat).
  (** the time that step [i] takes, the velocity from [i] to [i + 1], and the time of the whole trajectory *)
  Definition step_time (X : Z -> Z -> R) (i : Z) : R := / X i (Z.of_nat d).
  Definition speed (X : Z -> Z -> R) (i j : Z) : R := (X (i + 1)%Z j - X i j) / step_time X (i + 1).
  Definition duration (X : Z -> Z -> R) : R := bigsum (Z.to_nat (m - 1)) (fun k => step_time X (Z.of_nat k + 1)).

  (** what is asked for: an untimed joint term, the velocity of one joint, or the total time *)
  Inductive part := PJoint (t : order * jterm R) | PSpeed (t : order * jterm R) (j : Z) | PTime (coeff limit : R).
  (** a position term that is marked as using time is one that is not *)
  Definition untimed (t : order * jterm R) : order * jterm R :=
    let q := snd t in
    (fst t, {| jt_type := jt_type q - TT_USE_TIME; jt_coeffs := jt_coeffs q; jt_targets := jt_targets q; jt_uppers := jt_uppers q; jt_lowers := jt_lowers q; jt_first := jt_first q; jt_last := jt_last q |}).
  Definition joints : list Z := map Z.of_nat (seq 0 d).
  Definition parts_of (t : tterm) : list part :=
    match t with
    | TJoint t => if has (jt_type (snd t)) TT_USE_TIME then match fst t with Vel => map (PSpeed t) joints | _ => [PJoint (untimed t)] end else [PJoint t]
    | TTotal _ c l => [PTime c l]
    end.
  Definition parts (ts : list tterm) : list part := flat_map parts_of ts.
  Definition part_exact (q : part) : Prop :=
    match q with PJoint t | PSpeed t _ => is_exact d t | PTime _ l => Rabs l < / 100000 end.
  (** by how much the velocity from [i] to [i + 1] is above the upper and below the lower tolerance *)
  Definition fast (t : order * jterm R) (X : Z -> Z -> R) (i j : Z) : R := speed X i j - target d t j - upper d t j.
  Definition slow (t : order * jterm R) (X : Z -> Z -> R) (i j : Z) : R := lower d t j - (speed X i j - target d t j).
  Definition over_steps (t : order * jterm R) (h : Z -> R) : R :=
    bigsum (Z.to_nat (last_step m t - first_step m t)) (fun k => h (first_step m t + Z.of_nat k)%Z).
  Definition part_cost (q : part) (X : Z -> Z -> R) (v : R) : Prop :=
    match q with
    | PJoint t => term_cost m d t X v
    | PSpeed t j =>
        (is_exact d t -> v = over_steps t (fun i => coeff d t j * (fast t X i j * fast t X i j) + coeff d t j * (slow t X i j * slow t X i j))) /\
        (~ is_exact d t -> v = over_steps t (fun i => coeff d t j * Rmax (fast t X i j) 0 + coeff d t j * Rmax (slow t X i j) 0))
    | PTime c l =>
        (Rabs l < / 100000 -> v = c * ((duration X - l) * (duration X - l))) /\ (~ Rabs l < / 100000 -> v = c * Rmax (duration X - l) 0)
    end.
  Definition part_viol (q : part) (X : Z -> Z -> R) (v : R) : Prop :=
    match q with
    | PJoint t => term_viol m d t X v
    | PSpeed t j =>
        (is_exact d t -> v = over_steps t (fun i => Rabs (coeff d t j * fast t X i j) + Rabs (coeff d t j * slow t X i j))) /\
        (~ is_exact d t -> v = over_steps t (fun i => Rmax (coeff d t j * fast t X i j) 0 + Rmax (coeff d t j * slow t X i j) 0))
    | PTime c l =>
        (Rabs l < / 100000 -> v = Rabs (c * (duration X - l))) /\ (~ Rabs l < / 100000 -> v = Rmax (c * (duration X - l)) 0)
    end.

  (** terms that make sense, with numbers below [inf] when joint values are up to [big], inverse time steps up to [quick] and at least
      [least] *)
  Definition tterm_ok (inf big quick least : R) (ty : Z) (t : tterm) : Prop :=
    match t with
    | TJoint t =>
        term_ok m d t inf ty \/ fst t = Pos /\ has (jt_type (snd t)) TT_USE_TIME = true /\ term_ok m d (untimed t) inf ty \/
        fst t = Vel /\ (1 < m)%Z /\ (0 <= jt_first (snd t))%Z /\ HatchProps.params_ok (snd t) d /\ jt_type (snd t) = (ty + TT_USE_TIME)%Z /\
        forall j, (0 <= j < Z.of_nat d)%Z ->
          Rabs (coeff d t j) * (2 * big * quick + Rabs (target d t j + upper d t j)) < inf /\
          Rabs (coeff d t j) * (2 * big * quick + Rabs (target d t j + lower d t j)) < inf
    | TTotal ty' c l => (ty' = ty \/ ty' = ty + TT_USE_TIME)%Z /\ Rabs c * (2 * (IZR m / least) + Rabs l) < inf
    end.
End Parts.
Definition uses_time (t : tterm) : Prop := match t with TJoint t => has (jt_type (snd t)) TT_USE_TIME = true | TTotal ty _ _ => has ty TT_USE_TIME = true end.

Section Plan.
  Context (p : tplan).
  Local Notation m := (tp_steps p).
  Local Notation d := (length (tp_limits p)).
  (** what a run can meet, with tolerance [eps] of the solver: joint values up to [big], inverse time steps from [least] to [quick] *)
  Definition ranges (inf eps big quick least : R) : Prop :=
    0 <= eps /\ big < inf /\ 0 < least /\ quick < inf /\
    (forall i j, (0 <= i < m)%Z -> (0 <= j < Z.of_nat d)%Z -> Rabs (initial (base p) i j) <= big) /\
    Forall (fun l => Rabs (fst l) + eps <= big /\ Rabs (snd l) + eps <= big /\ Rabs (snd l) + 1 / 1000 <= big) (tp_limits p) /\
    least <= tp_dt_lower p - eps /\ least <= tp_dt_upper p - 1 / 1000 /\ tp_dt_upper p + eps <= quick /\ least <= tp_dt p /\ tp_dt p <= quick.
  Definition tplan_ok (inf eps big quick least : R) : Prop :=
    (1 <= m < 2 ^ 31)%Z /\ (1 <= Z.of_nat d)%Z /\ (Z.of_nat d + 1 < 2 ^ 31)%Z /\ Forall (fun l => fst l <= snd l) (tp_limits p) /\ tp_dt_lower p <= tp_dt_upper p /\
    length (tp_now p) = d /\ init_ok (base p) /\
    (forall t, In t (tp_fixed_steps p) -> 0 <= t < m)%Z /\ (forall j, In j (tp_fixed_dofs p) -> 0 <= j < Z.of_nat d)%Z /\
    ranges inf eps big quick least /\
    Forall (tterm_ok m d inf big quick least TT_COST) (tp_costs p) /\ Forall (tterm_ok m d inf big quick least TT_CNT) (tp_cnts p) /\
    (exists t, In t (tp_costs p ++ tp_cnts p) /\ uses_time t).

  (** the limits and the initial value of a column *)
  Definition tlimits (j : Z) : R * R := if (j =? Z.of_nat d)%Z then (tp_dt_lower p, tp_dt_upper p) else limits (base p) j.
  Definition tinitial (i j : Z) : R := if (j =? Z.of_nat d)%Z then tp_dt p else initial (base p) i j.
  Definition twithin (inf eps : R) (X : Z -> Z -> R) : Prop :=
    (forall i j, (0 <= i < m)%Z -> (0 <= j <= Z.of_nat d)%Z -> near inf eps (fst (tlimits j)) (snd (tlimits j)) (X i j)) /\
    forall i j, fixed (base p) i j -> Rabs (X i j - initial (base p) i j) <= eps.
  (** the point vector as a trajectory *)
  Definition ttraj_of (x : list R) (i j : Z) : R := nth (Z.to_nat (i * (Z.of_nat d + 1) + j)) x 0.
End Plan.
