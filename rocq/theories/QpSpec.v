(** * Vocabulary for the statements about TrajOptQPProblem *)
From Coq Require Import List ZArith Bool Arith Reals.
From Verif Require Import Num RSums IfoptModel IfoptProofs ExprsModel QpModel.
Import ListNotations.
Local Open Scope R_scope.

(** What a set shows to the QP problem besides values and Jacobian. *)
Definition shape (t : term R) (x : list R) := (cm_rows (tm_at t x), cm_coeffs (tm_at t x), cm_bounds (tm_at t x)).
(** A static set always has the same rows, coefficients and bounds; a dynamic one does so while update()
    returns 0. *)
Definition wf_term (t : term R) : Prop :=
  if tm_dyn t then forall x y, tm_count t x = 0%nat -> tm_count t y = 0%nat -> shape t x = shape t y
  else forall x y, shape t x = shape t y.

Definition objectives (s : sources R) := s_sq s ++ s_dsq s.
Definition hinges (s : sources R) := s_hinge s ++ s_dhinge s.
Definition absolutes (s : sources R) := s_abs s ++ s_dabs s.
Definition merits (s : sources R) := s_cnt s ++ s_dcnt s.

(** The states an application can produce, provided it calls setup() only after having added something
    since the last setup(). *)
Inductive reach : qp R -> Prop :=
| reach_new x bs : length bs = length x -> reach (qp_new x bs)
| reach_cnt p t : reach p -> wf_term t -> reach (add_constraint p t)
| reach_cost p t k p' : reach p -> wf_term t -> add_cost p t k = Val p' -> reach p'
| reach_setup p : reach p -> q_init p = false -> reach (setup p)
| reach_vars p x : reach p -> length x = length (q_x p) -> reach (set_variables p x)
| reach_box p b p' : reach p -> set_box p b = Val p' -> reach p'
| reach_scale p k p' : reach p -> scale_box p k = Val p' -> reach p'
| reach_merit p m p' : reach p -> set_merit p m = Val p' -> reach p'
| reach_convexify p p' : reach p -> convexify sqrt p = Val p' -> reach p'.

(** One row of a set: Jacobian row, value, bounds, coefficient. *)
Record crow := { r_jac : srow R; r_val : R; r_bnd : bnd R; r_w : R }.
Fixpoint rows_of (js : list (srow R)) (vs : list R) (bs : list (bnd R)) (ws : list R) : list crow :=
  match js, vs, bs, ws with
  | j :: js, v :: vs, b :: bs, w :: ws => {| r_jac := j; r_val := v; r_bnd := b; r_w := w |} :: rows_of js vs bs ws
  | _, _, _, _ => []
  end.
Definition comp_rows (c : comp R) : list crow := rows_of (cm_jac c) (cm_vals c) (cm_bounds c) (cm_coeffs c).
Definition term_rows (x : list R) (t : term R) : list crow := comp_rows (tm_at t x).

(** A set is usable at [x] in a problem with [n] variables if its vectors have one entry per row, its
    Jacobian stays inside the variables, and its bounds have a type supported for its role. *)
Definition role_type (ty : itype) (b : btype) : Prop :=
  match ty with
  | IObjective | IAbsolute => b = Equality
  | IHinge => b = LowerBound \/ b = UpperBound
  | IMerit => b = Equality \/ b = LowerBound \/ b = UpperBound
  end.
Definition usable (ty : itype) (n : nat) (x : list R) (t : term R) : Prop :=
  comp_ok (tm_at t x) /\ Forall (Forall (fun p => (fst p < n)%nat)) (cm_jac (tm_at t x)) /\
  Forall (fun b => proper b /\ role_type ty (type_of b)) (cm_bounds (tm_at t x)).
Definition all_usable (p : qp R) : Prop :=
  let u ty := Forall (usable ty (length (q_x p)) (q_x p)) in
  u IObjective (objectives (q_src p)) /\ u IHinge (hinges (q_src p)) /\ u IAbsolute (absolutes (q_src p)) /\ u IMerit (merits (q_src p)).

(** The linearised row: its constant is computed with the exact Jacobian row, its slope has the entries
    below 1e-7 replaced by zero. *)
Definition linear (x0 : list R) (r : crow) (x : list R) : R := r_val r - srow_dot (r_jac r) x0 + srow_dot (thr_row (r_jac r)) x.
Definition no_small (r : crow) : Prop := Forall (fun cv => snd cv = 0 \/ / 10 ^ 7 <= Rabs (snd cv)) (r_jac r).

(** The rows of the QP, [l <= A z <= u], with all bounds present. *)
Definition all_bounds (c : convex R) : list (option (bnd R)) := c_rowb c ++ c_varb c ++ map Some (c_slackb c).
Definition qp_feasible (c : convex R) (z : list R) : Prop :=
  Forall2 (fun r ob => exists b, ob = Some b /\ inside b (srow_dot r z)) (c_mat c) (all_bounds c).
Definition in_box (c : convex R) (x : list R) : Prop := Forall2 (fun v ob => exists b, ob = Some b /\ inside b v) x (c_varb c).

(** number of sets with rows among the first [k] *)
Definition nonempty (x : list R) (t : term R) : bool := negb (cm_rows (tm_at t x) =? 0)%nat.
Definition filled (x : list R) (ts : list (term R)) (k : nat) : nat := length (filter (nonempty x) (firstn k ts)).
