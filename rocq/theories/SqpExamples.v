(** * Concrete problems used as examples and counterexamples for the SQP solver theorems *)
From Coq Require Import List ZArith QArith Reals Bool Floats.SpecFloat.
From Verif Require Import Num SqpModel.
Import ListNotations.
Open Scope Q_scope.

(** World: the scripted answers of the QP solver, the scripted answers of the callbacks and the
    scripted clock readings (an exhausted script repeats its default). *)
Record script (T : Type) := { s_qp : list (option (list T)); s_cb : list bool; s_clock : list T }.
Arguments s_qp {T}. Arguments s_cb {T}. Arguments s_clock {T}.

(** A problem with one variable; [model] is the convexified cost. *)
Definition scripted {T} {NT : Num T} (ncnt : nat) (costs viols model : list T -> list T) : env T (script T) :=
  {| n_nlp := 1; n_cnt := ncnt; exact_costs := costs; exact_viols := viols;
     convexify := fun w _ _ _ => w; update_bounds := fun w _ _ => w;
     qp_solve := fun w => match s_qp w with
       | [] => (w, None)
       | a :: r => ({| s_qp := r; s_cb := s_cb w; s_clock := s_clock w |}, a) end;
     convex_viols := fun _ => viols; convex_costs := fun _ => model;
     callbacks := fun w _ => match s_cb w with
       | [] => (w, [true])
       | a :: r => ({| s_qp := s_qp w; s_cb := r; s_clock := s_clock w |}, [true; a]) end;
     clock := fun w => match s_clock w with
       | [] => (w, nzero)
       | a :: r => ({| s_qp := s_qp w; s_cb := s_cb w; s_clock := r |}, a) end |}.

(** The default parameters of types.h 99-141 with the given iteration limit and expansion ratio;
    numeric_limits lowest()/max() are replaced by -1000000 and 1000. *)
Definition defaults {T} {NT : Num T} (iters : Z) (expand : T) : sqp_params T :=
  {| improve_ratio_threshold := ndec 25 (-2); min_trust_box_size := ndec 1 (-4);
     min_approx_improve := ndec 1 (-4);
     min_approx_improve_frac := nofZ (- 1000000); max_iterations := iters;
     trust_shrink_ratio := ndec 1 (-1); trust_expand_ratio := expand;
     cnt_tolerance := ndec 1 (-4); max_merit_coeff_increases := nofZ 5;
     max_qp_solver_failures := 3; merit_coeff_increase_ratio := nofZ 10;
     max_time := nofZ 1000; initial_merit_error_coeff := nofZ 10;
     inflate_constraints_individually := true; initial_trust_box_size := ndec 1 (-1) |}.

(** minimise x^2 subject to x >= 1, with a convex model that is too optimistic beyond 2 *)
Definition exq : env Q (script Q) :=
  scripted 1 (fun x => match x with a :: _ => [nmul a a] | [] => [] end)
             (fun x => match x with a :: _ => [nmax nzero (nsub none_ a)] | [] => [] end)
             (fun x => match x with a :: _ => [if nltb (2 # 1) a then nzero else nmul a a] | [] => [] end).
Definition mk {T} q c t : script T := {| s_qp := q; s_cb := c; s_clock := t |}.

Definition st_of {A W} (o : outcome (sst A W)) := match o with Ok s => Some (status s) | _ => None end.
Definition vars_of {A W} (o : outcome (sst A W)) := match o with Ok s => p_vars s | _ => [] end.
Definition trace_of {A W} (o : outcome (sst A W)) := match o with Ok s => trace s | _ => [] end.
Definition viols_of {A W} (o : outcome (sst A W)) := match o with Ok s => e_viols (best (res s)) | _ => [] end.
Definition box_of {A W} (o : outcome (sst A W)) := match o with Ok s => box_size (res s) | _ => [] end.

(** a run with an accepted step, a rejected step, a QP failure and convergence at x = 1 *)
Definition good_run := solve (defaults 50 (nofZ 2)) exq 50 10 [3]
  (mk [Some [2]; Some [5]; Some [6#5]; None; Some [1; 7]; Some [1]] [] []).


(** every QP answer is rejected: cost 1 everywhere except a constant optimistic model 0 *)
Definition rejecting : env Q (script Q) := scripted 0 (fun x => [none_]) (fun _ => []) (fun _ => [nzero]).
Definition reject_run := solve (defaults 1 (3 # 2)) rejecting 20 20 [3]
  (mk (repeat (Some [2 # 1]) 20) [] []).

(** every callback answers false; the constraint x >= 1 stays violated because no step is taken *)
Definition stop_run := solve (defaults 5 (3 # 2)) exq 20 20 [0]
  (mk (repeat (Some [1 # 1]) 20) (repeat false 20) []).

(** the QP solver fails on every call *)
Definition failing : env Q (script Q) :=
  {| n_nlp := n_nlp exq; n_cnt := n_cnt exq; exact_costs := exact_costs exq; exact_viols := exact_viols exq;
     convexify := convexify exq; update_bounds := update_bounds exq; qp_solve := fun w => (w, None);
     convex_viols := convex_viols exq; convex_costs := convex_costs exq; callbacks := callbacks exq;
     clock := clock exq |}.
Definition fail_run := solve (defaults 50 (3 # 2)) failing 20 20 [0] (mk [] [] []).

(** the violation equals the tolerance exactly: not converged, yet no coefficient is increased *)
Definition at_tol : env Q (script Q) := scripted 1 (fun x => [none_]) (fun _ => [ndec 1 (-4)]) (fun _ => [none_]).
Definition tol_run := solve (defaults 50 (3 # 2)) at_tol 20 20 [0] (mk (repeat (Some [0 # 1]) 20) [] []).

(** binary64: the cost of the trial point is NaN *)
Definition nan_env : env f64 (script f64) :=
  @scripted f64 f64_Num 0 (fun x => match x with a :: _ => [if SFltb a (f64_ofZ 1) then S754_nan else f64_ofZ 5] | [] => [] end)
    (fun _ => []) (fun _ => [f64_ofZ 1]).
Definition nan_run := @solve f64 f64_Num _ (@defaults f64 f64_Num 3 (f64_ofZ 2)) nan_env 20 20 [f64_ofZ 2]
  (mk (repeat (Some [f64_ofZ 0]) 20) [] []).

(** rejected steps with shrink ratio 1: the trust-region loop never ends *)
Definition no_shrink_params : sqp_params Q :=
  let p := defaults (T := Q) 5 (3 # 2) in
  {| improve_ratio_threshold := improve_ratio_threshold p; min_trust_box_size := min_trust_box_size p;
     min_approx_improve := min_approx_improve p; min_approx_improve_frac := min_approx_improve_frac p;
     max_iterations := max_iterations p; trust_shrink_ratio := none_; trust_expand_ratio := trust_expand_ratio p;
     cnt_tolerance := cnt_tolerance p; max_merit_coeff_increases := max_merit_coeff_increases p;
     max_qp_solver_failures := max_qp_solver_failures p;
     merit_coeff_increase_ratio := merit_coeff_increase_ratio p; max_time := max_time p;
     initial_merit_error_coeff := initial_merit_error_coeff p;
     inflate_constraints_individually := inflate_constraints_individually p;
     initial_trust_box_size := initial_trust_box_size p |}.
Definition always_rejecting : env Q unit :=
  {| n_nlp := 1; n_cnt := 0; exact_costs := fun _ => [none_]; exact_viols := fun _ => [];
     convexify := fun w _ _ _ => w; update_bounds := fun w _ _ => w;
     qp_solve := fun w => (w, Some [2]); convex_viols := fun _ _ => []; convex_costs := fun _ _ => [nzero];
     callbacks := fun w _ => (w, []); clock := fun w => (w, nzero) |}.

(** Real problems: minimise x^2, and the same with a constant violation of 1. *)
Definition real_params : sqp_params R := defaults (T := R) 1 2%R.
Definition real_env_gen (ncnt : nat) (viol : list R) (step : R) : env R unit :=
  {| n_nlp := 1; n_cnt := ncnt;
     exact_costs := fun x => match x with a :: _ => [a * a]%R | [] => [] end;
     exact_viols := fun _ => viol;
     convexify := fun w _ _ _ => w; update_bounds := fun w _ _ => w;
     qp_solve := fun w => (w, Some [step]); convex_viols := fun _ _ => viol;
     convex_costs := fun _ x => match x with a :: _ => [a * a]%R | [] => [] end;
     callbacks := fun w _ => (w, []); clock := fun w => (w, 0%R) |}.
Definition real_env : env R unit := real_env_gen 0 [] 2%R.
Definition pen_env : env R unit := real_env_gen 1 [1%R] 3%R.
