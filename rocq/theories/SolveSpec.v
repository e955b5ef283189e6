(** * What a solver promises, and what optimize() is supposed to mean

    The problem a caller has built is the history of calls (BackendSpec.v): constraints and bounds in force and the
    objective.  The contracts of the solver libraries are over the arrays they are given. *)
From Coq Require Import List ZArith Bool Arith Reals.
From Verif Require Import Num ScoExprModel RSums Common EigenModel EigenProofs BackendModel BackendSpec BackendProps BpmpdProps SolveModel.
Import ListNotations.
Local Open Scope R_scope.

(** ** the problem that was built *)
(** [v] lies between [l] and [u] up to [eps]; bounds of at least [inf] are none *)
Definition near (inf eps l u v : R) : Prop := (l <= - inf \/ l - eps <= v) /\ (inf <= u \/ v <= u + eps).
Definition holds_near (eps : R) (c : cfact R) (X : list R) : Prop :=
  if c_ineq c then aff_value (c_expr c) X <= eps else - eps <= aff_value (c_expr c) X <= eps.
(** [X], values of all variables ever created, satisfies up to [eps] every constraint and all bounds in force *)
Definition fits_problem (inf eps : R) (cs : list (call R)) (X : list R) : Prop :=
  (forall id, In id (live_c (cfacts cs)) -> holds_near eps (nth id (cfacts cs) no_c) X) /\
  (forall id, In id (live_v (vfacts inf cs)) -> near inf eps (v_lo (nth id (vfacts inf cs) no_v)) (v_hi (nth id (vfacts inf cs) no_v)) (nth id X 0)).
(** the objective last set, if setObjective for affine expressions did not leave it in doubt (C43) *)
Definition note_o (o : option (quad R)) (c : call R) : option (quad R) :=
  match c with SetQuad q => Some q | SetAff _ => None | _ => o end.
Definition objective_of (cs : list (call R)) : option (quad R) := fold_left note_o cs (Some (quad_const 0)).
(** expressions in force are well formed and over variables in force; constants are not taken for infinity *)
Definition well_posed (inf : R) (cs : list (call R)) (q : quad R) : Prop :=
  0 < inf /\ sane inf [] [] cs /\ cnts_ok inf (vfacts inf cs) (cfacts cs) /\ objective_of cs = Some q /\ wf_quad q /\ over_q (vfacts inf cs) q.
(** [X] solves the problem up to [eps] in the constraints and [delta] in the objective *)
Definition solves_problem (inf eps delta : R) (cs : list (call R)) (q : quad R) (X : list R) : Prop :=
  fits_problem inf eps cs X /\ forall Y, fits_problem inf 0 cs Y -> quad_value q X <= quad_value q Y + delta.
(** no point solves it: there is none, or the objective decreases without end *)
Definition unsolvable (inf : R) (cs : list (call R)) (q : quad R) : Prop :=
  forall X, fits_problem inf 0 cs X -> forall low, exists Y, fits_problem inf 0 cs Y /\ quad_value q Y < low.
(** the values getVarValues returns *)
Definition has_values (inf : R) (cs : list (call R)) (b : backend R) (sol X : list R) : Prop :=
  forall id, In id (live_v (vfacts inf cs)) -> get_value b sol id = Some (nth id X 0).

(** ** contracts *)
(** points of [n] coordinates; [fit eps] the constraints up to [eps] *)
Definition answer (n : nat) (fit : R -> list R -> Prop) (value : list R -> R) (eps delta : R) (x : list R) : Prop :=
  fit eps x /\ forall y, length y = n -> fit 0 y -> value x <= value y + delta.
Definition no_point (n : nat) (fit : R -> list R -> Prop) : Prop := forall y, length y = n -> ~ fit 0 y.
Definition no_answer (n : nat) (fit : R -> list R -> Prop) (value : list R -> R) : Prop :=
  forall y, length y = n -> fit 0 y -> forall low, exists z, length z = n /\ fit 0 z /\ value z < low.

(** OSQP: l <= A x <= u, minimise 1/2 x'Px + q'x *)
Definition osqp_fit (inf : R) (w : wspace R) (eps : R) (x : list R) : Prop :=
  let row := activity (w_A w) x in forall r, (r < m_rows (w_A w))%nat -> near inf eps (nth r (w_l w) 0) (nth r (w_u w) 0) (row r).
Definition osqp_value (w : wspace R) (x : list R) : R := quadratic (m_cols (w_P w)) (mirrored (csc_get (m_csc (w_P w)))) (w_q w) x.
Definition osqp_honest (inf eps delta : R) (r : osqp_run R) : Prop :=
  forall w st x, or_solve r w = (true, st, x) -> let n := m_cols (w_P w) in
    length x = n /\
    (st = OSolved \/ st = OSolvedInaccurate -> answer n (osqp_fit inf w) (osqp_value w) eps delta x) /\
    (st = OPrimalInfeasible \/ st = OPrimalInfeasibleInaccurate -> no_point n (osqp_fit inf w)) /\
    (st = ODualInfeasible \/ st = ODualInfeasibleInaccurate -> no_answer n (osqp_fit inf w) (osqp_value w)).

(** qpOASES: lb <= x <= ub, lbA <= A x <= ubA, minimise 1/2 x'Hx + g'x *)
Definition qpo_fit (inf : R) (d : qpo R) (eps : R) (x : list R) : Prop :=
  let row := activity (p_A d) x in
  (forall c, (c < length (p_lb d))%nat -> near inf eps (nth c (p_lb d) 0) (nth c (p_ub d) 0) (nth c x 0)) /\
  (forall r, (r < m_rows (p_A d))%nat -> near inf eps (nth r (p_lbA d) 0) (nth r (p_ubA d) 0) (row r)).
Definition qpo_value (d : qpo R) (x : list R) : R := quadratic (m_cols (p_H d)) (csc_get (m_csc (p_H d))) (p_g d) x.
Record qpoases_honest (inf eps delta : R) (Q : sqproblem R) : Prop := {
  qh_new : forall n m, sq_nv Q (sq_new Q n m) = n /\ sq_nc Q (sq_new Q n m) = m /\ sq_ready Q (sq_new Q n m) = false;
  (** with a problem of the right size *)
  qh_hot : forall p d k p' v k', sq_hotstart Q p d k = (p', v, k') -> sq_nv Q p = m_cols (p_H d) -> sq_nc Q p = m_rows (p_A d) ->
    v = QSuccess -> length (sq_primal Q p') = m_cols (p_H d) /\ answer (m_cols (p_H d)) (qpo_fit inf d) (qpo_value d) eps delta (sq_primal Q p');
  qh_init : forall p d k p' v k', sq_init Q p d k = (p', v, k') -> sq_nv Q p = m_cols (p_H d) -> sq_nc Q p = m_rows (p_A d) ->
    match v with
    | QSuccess => length (sq_primal Q p') = m_cols (p_H d) /\ answer (m_cols (p_H d)) (qpo_fit inf d) (qpo_value d) eps delta (sq_primal Q p')
    | QInitInfeasible => no_point (m_cols (p_H d)) (qpo_fit inf d)
    | QOther => True
    end }.

(** BPMPD: see BpmpdProps.v *)
Definition bpm_fit (inf : R) (d : bpm R) (eps : R) (x : list R) : Prop :=
  let row := brow d x in
  (forall c, (c < length (i_obj d))%nat -> near inf eps (nth c (i_lo d) 0) (nth c (i_hi d) 0) (nth c x 0)) /\
  (forall r, (r < length (i_rhs d))%nat -> near inf eps (nth (length (i_obj d) + r) (i_lo d) 0) (nth (length (i_obj d) + r) (i_hi d) 0) (row r)).
Definition bpm_value (d : bpm R) (x : list R) : R := quadratic (length (i_obj d)) (lower (bget (i_q d))) (i_obj d) x.
(** [primal] has n + m entries, the first n are the point *)
Definition bpmpd_honest (inf eps delta : R) (solve : bpm R -> list R * Z) : Prop :=
  forall d x code, solve d = (x, code) -> let n := length (i_obj d) in
    (n <= length x)%nat /\
    (code = 2%Z -> answer n (bpm_fit inf d) (bpm_value d) eps delta (firstn n x)) /\
    (code = 3%Z -> no_answer n (bpm_fit inf d) (bpm_value d)) /\
    (code = 4%Z -> no_point n (bpm_fit inf d)).

(** a solver that finds an answer whenever there is one; for qpOASES with 255 working set recalculations to spend *)
Definition solvable (n : nat) (fit : R -> list R -> Prop) (value : list R -> R) : Prop := exists y, length y = n /\ answer n fit value 0 0 y.
Definition osqp_able (inf : R) (r : osqp_run R) : Prop :=
  or_setup r = true /\ forall w, solvable (m_cols (w_P w)) (osqp_fit inf w) (osqp_value w) -> exists st x, or_solve r w = (true, st, x) /\ (st = OSolved \/ st = OSolvedInaccurate).
Definition qpoases_able (inf : R) (Q : sqproblem R) : Prop :=
  forall p d k, sq_nv Q p = m_cols (p_H d) -> sq_nc Q p = m_rows (p_A d) -> solvable (m_cols (p_H d)) (qpo_fit inf d) (qpo_value d) -> (255 <= k)%nat ->
    exists p' k', sq_init Q p d k = (p', QSuccess, k').
Definition bpmpd_able (inf : R) (solve : bpm R -> list R * Z) : Prop :=
  forall d, solvable (length (i_obj d)) (bpm_fit inf d) (bpm_value d) -> snd (solve d) = 2%Z.

(** ** programs: calls of the interface and solves *)
Inductive pstep (A : Type) := Call (c : call R) | Solve (a : A).
Arguments Call {A}. Arguments Solve {A}.
(** for the problem, a solve is an update() *)
Definition calls_of {A} (ps : list (pstep A)) : list (call R) := map (fun p => match p with Call c => c | Solve _ => Update end) ps.
Definition bound {A} (o : option A) : outcome A := match o with Some a => Ok a | None => Undef end.

Definition osqp_step (inf : R) (sz : nat) (updating warm : bool) (s : omodel R) (p : pstep (osqp_run R)) : outcome (omodel R) :=
  match p with
  | Call c => obind (bound (bcall inf (om_b s) c)) (fun b => Ok {| om_b := b; om_o := om_o s; om_status := om_status s; om_sol := om_sol s |})
  | Solve r => obind (osqp_optimize inf sz updating warm r s) (fun x => Ok (fst x))
  end.
Fixpoint osqp_steps inf sz updating warm (s : omodel R) (ps : list (pstep (osqp_run R))) : outcome (omodel R) :=
  match ps with [] => Ok s | p :: ps => obind (osqp_step inf sz updating warm s p) (fun s => osqp_steps inf sz updating warm s ps) end.

(** an exception ends the program *)
Definition qpoases_step (Q : sqproblem R) (inf : R) (s : qmodel Q) (p : pstep unit) : outcome (qmodel Q) :=
  match p with
  | Call c => obind (bound (bcall inf (qm_b Q s) c)) (fun b => Ok {| qm_b := b; qm_p := qm_p Q s; qm_sol := qm_sol Q s |})
  | Solve _ => obind (qpoases_optimize Q inf s) (fun x => match x with Returns x => Ok (fst x) | Raises => Undef end)
  end.
Fixpoint qpoases_steps (Q : sqproblem R) inf (s : qmodel Q) (ps : list (pstep unit)) : outcome (qmodel Q) :=
  match ps with [] => Ok s | p :: ps => obind (qpoases_step Q inf s p) (fun s => qpoases_steps Q inf s ps) end.

Definition bpmpd_step (inf : R) (s : bmodel R) (p : pstep (bpm R -> list R * Z)) : outcome (bmodel R) :=
  match p with
  | Call c => obind (bound (bcall inf (bm_b s) c)) (fun b => Ok {| bm_b := b; bm_sol := bm_sol s |})
  | Solve f => obind (bpmpd_optimize inf f s) (fun x => Ok (fst x))
  end.
Fixpoint bpmpd_steps inf (s : bmodel R) (ps : list (pstep (bpm R -> list R * Z))) : outcome (bmodel R) :=
  match ps with [] => Ok s | p :: ps => obind (bpmpd_step inf s p) (fun s => bpmpd_steps inf s ps) end.
