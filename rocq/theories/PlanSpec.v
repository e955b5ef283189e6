(** * What is expected of ConstructProblem and OptimizeProblem for joint space problems

    In terms of the plan and of trajectories [X] (step, joint); [per_joint], [covered], [first_used] and [last_used] (HatchProps.v) say
    how defaults and step ranges are understood, [difference] and [over_cells] (TrajCostProps.v) are finite differences and sums. *)
From Coq Require Import List ZArith Bool Arith Reals.
From Verif Require Import Num RSums ScoOptModel ArrayModel TrajCostModel TrajCostProps TrajoptModel HatchProps SolveSpec PlanModel.
Import ListNotations.
Local Open Scope R_scope.

Section Term.
  Context (m : Z) (d : nat) (t : order * jterm R).
  Definition coeff (j : Z) : R := at_joint (per_joint d 1 (jt_coeffs (snd t))) j.
  Definition target (j : Z) : R := at_joint (per_joint d 0 (jt_targets (snd t))) j.
  Definition upper (j : Z) : R := at_joint (per_joint d 0 (jt_uppers (snd t))) j.
  Definition lower (j : Z) : R := at_joint (per_joint d 0 (jt_lowers (snd t))) j.
  (** how far the trajectory is from the target, and outside the tolerances *)
  Definition dev (X : Z -> Z -> R) (i j : Z) : R := difference (fst t) X i j - target j.
  Definition excess (X : Z -> Z -> R) (i j : Z) : R :=
    Rmax (coeff j * (dev X i j - upper j)) 0 + Rmax (coeff j * (lower j - dev X i j)) 0.
  Definition first_step : Z := first_used (fst t) m (snd t).
  Definition last_step : Z := last_used (fst t) m (snd t).
  Definition over_term (h : Z -> Z -> R) : R := over_cells (fst t) first_step last_step (Z.of_nat d) h.
  Definition is_exact : Prop := exact (snd t) d.
  Definition term_cost (X : Z -> Z -> R) (v : R) : Prop :=
    (is_exact -> v = over_term (fun i j => coeff j * (dev X i j * dev X i j))) /\ (~ is_exact -> v = over_term (excess X)).
  Definition term_viol (X : Z -> Z -> R) (v : R) : Prop :=
    (is_exact -> v = over_term (fun i j => Rabs (coeff j * (dev X i j * dev X i j)))) /\ (~ is_exact -> v = over_term (excess X)).
  (** the steps and joints it is about *)
  Definition in_term (i j : Z) : Prop := (first_step <= i <= last_step - steps (fst t) /\ 0 <= j < Z.of_nat d)%Z.
  (** met exactly *)
  Definition met (X : Z -> Z -> R) : Prop := forall i j, in_term i j -> excess X i j = 0.

  (** quadratic costs are not upside down *)
  Definition bowl : Prop := is_exact -> forall j, (0 <= j < Z.of_nat d)%Z -> 0 <= coeff j.

  Definition term_ok (inf : R) (ty : Z) : Prop :=
    (steps (fst t) < m)%Z /\ (0 <= jt_first (snd t))%Z /\
    covered (fst t) m (wanted_first (fst t) m (jt_first (snd t))) (wanted_last m (jt_last (snd t))) /\
    HatchProps.params_ok (snd t) d /\ jt_type (snd t) = ty /\
    forall j, (0 <= j < Z.of_nat d)%Z ->
      Rabs (coeff j * target j) < inf /\ Rabs (coeff j * (target j + upper j)) < inf /\ Rabs (coeff j * (target j + lower j)) < inf.
End Term.

Section Plan.
  Context (p : plan).
  Definition dofs : nat := length (pl_limits p).
  (** the initial trajectory *)
  Definition goal_of : list R :=
    if ((length (m_rows (pl_data p)) =? 1) && (m_cols (pl_data p) =? dofs))%nat then nth 0 (m_rows (pl_data p)) [] else map (fun r => nth 0 r 0) (m_rows (pl_data p)).
  Definition initial (i j : Z) : R :=
    match pl_init p with
    | Stationary => at_joint (pl_now p) j
    | JointInterpolated => at_joint (pl_now p) j + IZR i / IZR (pl_steps p - 1) * (at_joint goal_of j - at_joint (pl_now p) j)
    | GivenTraj => nth (Z.to_nat j) (nth (Z.to_nat i) (m_rows (pl_data p)) []) 0
    end.
  Definition init_ok : Prop :=
    match pl_init p with
    | Stationary => True
    | JointInterpolated => (2 <= pl_steps p)%Z /\ exists goal, length goal = dofs /\
        (m_rows (pl_data p) = [goal] /\ m_cols (pl_data p) = dofs \/ m_rows (pl_data p) = map (fun g => [g]) goal /\ m_cols (pl_data p) = 1%nat)
    | GivenTraj => Z.of_nat (length (m_rows (pl_data p))) = pl_steps p /\ m_cols (pl_data p) = dofs /\ Forall (fun r => length r = dofs) (m_rows (pl_data p))
    end.
  (** a plan that makes sense, with numbers below [inf] *)
  Definition plan_ok (inf : R) : Prop :=
    0 < inf /\ (1 <= pl_steps p < 2 ^ 31)%Z /\ (1 <= Z.of_nat dofs < 2 ^ 31)%Z /\ Forall (fun l => fst l <= snd l) (pl_limits p) /\
    length (pl_now p) = dofs /\ Forall (fun v => Rabs v < inf) (pl_now p) /\ Forall (fun v => Rabs v < inf) (concat (m_rows (pl_data p))) /\ init_ok /\
    (forall t, In t (pl_fixed_steps p) -> 0 <= t < pl_steps p)%Z /\ (forall j, In j (pl_fixed_dofs p) -> 0 <= j < Z.of_nat dofs)%Z /\
    Forall (fun t => term_ok (pl_steps p) dofs t inf TT_COST) (pl_costs p) /\ Forall (fun t => term_ok (pl_steps p) dofs t inf TT_CNT) (pl_cnts p) /\
    (pl_costs p <> [] \/ pl_cnts p <> []).

  Definition fixed (i j : Z) : Prop := (0 <= i < pl_steps p /\ 0 <= j < Z.of_nat dofs)%Z /\ (In i (pl_fixed_steps p) \/ In j (pl_fixed_dofs p)).
  Definition limits (j : Z) : R * R := nth (Z.to_nat j) (pl_limits p) (0, 0).
  (** within the limits, and at the initial values where fixed, up to [eps]; limits beyond +-[inf] are none *)
  Definition within (inf eps : R) (X : Z -> Z -> R) : Prop :=
    (forall i j, (0 <= i < pl_steps p)%Z -> (0 <= j < Z.of_nat dofs)%Z -> near inf eps (fst (limits j)) (snd (limits j)) (X i j)) /\
    forall i j, fixed i j -> Rabs (X i j - initial i j) <= eps.
  (** exactly within the limits and at the initial values where fixed *)
  Definition obeys (X : Z -> Z -> R) : Prop :=
    (forall i j, (0 <= i < pl_steps p)%Z -> (0 <= j < Z.of_nat dofs)%Z -> fst (limits j) <= X i j <= snd (limits j)) /\ forall i j, fixed i j -> X i j = initial i j.
  (** the point vector of a trajectory, and the other way round *)
  Definition traj_of (x : list R) (i j : Z) : R := nth (Z.to_nat (i * Z.of_nat dofs + j)) x 0.
  (** the matrix of the result *)
  Definition traj_at (rows : list (list R)) (i j : Z) : R := nth (Z.to_nat j) (nth (Z.to_nat i) rows []) 0.
End Plan.
