(** * BasicTrustRegionSQP::optimize with its convex models and a backend

    Sources: trajopt_sco/src/optimizers.cpp 151-233, 380-426 and 699-991, trajopt_sco/src/modeling.cpp 86-150 and 260-271.

    ScoOptModel.v has the control flow with the convexification and the solver left open; here they are filled in with the
    passes of MeritModel.v and the backends of SolveModel.v (OSQP, qpOASES, BPMPD).  What stays open: the values of costs and constraints,
    what their convex() returns at each x, the solver library (its i-th call may do anything), the callbacks and the clock.
    Simplifications: the objects of a pass are destroyed just before the next convexification, not right after the pass
    (nothing uses the model in between; those of the last pass stay in the state returned); callbacks do not touch
    the model or the results; numbers are reals; update_workspace is off. *)
From Coq Require Import List ZArith Bool Arith Reals.
From Verif Require Import Num Common ScoExprModel ModelingModel BackendModel GurobiSpec SolveModel SolveSpec RoundSolveSpec ScoOptModel MeritModel MeritSpec.
Import ListNotations.
Local Open Scope R_scope.

(** the problem: variables with the bounds they were created with, linear constraints (OptProb::addLinearConstraint,
    modeling.cpp 243-249), the bounds in force, values of costs and violations of constraints, and their convex() *)
Record prob := {
  f_vars : list (R * R); f_lin : list (bool * aff R); f_lb : list R; f_ub : list R;
  f_costs : list R -> list R; f_ncnt : nat; f_viols : list R -> list R;
  f_ccosts : list R -> list (list (op R)); f_ccnts : list R -> list (ccnts R) }.

(** the solver libraries the backends of SolveModel.v call: OSQP with its settings, whose i-th call is the i-th run; qpOASES; BPMPD
    likewise.  createModel (solver_interface.cpp 289-365) chooses one of them (C46). *)
Inductive library :=
| Osqp (sz : nat) (warm : bool) (solver : nat -> osqp_run R)
| Qpoases (Q : sqproblem R)
| Bpmpd (solver : nat -> bpm R -> list R * Z).
(** the state of the backend; [made] is the number of variables added so far, QPs are told apart by their number *)
Definition l_state (B : library) : Type := match B with Osqp _ _ _ => omodel R | Qpoases Q => qmodel Q | Bpmpd _ => bmodel R end.
Definition l_empty (B : library) : l_state B := match B with Osqp _ _ _ => empty_omodel | Qpoases Q => empty_qmodel Q | Bpmpd _ => empty_bmodel end.
Definition l_steps (inf : R) (B : library) (made : nat) : l_state B -> list (gcall R) -> outcome (l_state B) :=
  match B with
  | Osqp sz warm solver => fun s cs => osqp_steps inf sz false warm s (translate (fun name : list R => solver (length name)) made cs)
  | Qpoases Q => fun s cs => qpoases_steps Q inf s (translate (fun _ => tt) made cs)
  | Bpmpd solver => fun s cs => bpmpd_steps inf s (translate (fun name : list R => solver (length name)) made cs)
  end.
(** Model::optimize, the [i]-th call; an exception ends the run *)
Definition l_optimize (inf : R) (B : library) (i : nat) : l_state B -> outcome (l_state B * cvx_status) :=
  match B with
  | Osqp sz warm solver => osqp_optimize inf sz false warm (solver i)
  | Qpoases Q => fun s => obind (qpoases_optimize Q inf s) (fun r => match r with Returns r => Ok r | Raises => Undef end)
  | Bpmpd solver => bpmpd_optimize inf (solver i)
  end.
Definition l_back (B : library) : l_state B -> backend R := match B with Osqp _ _ _ => om_b | Qpoases Q => qm_b Q | Bpmpd _ => bm_b end.
Definition l_sol (B : library) : l_state B -> list R := match B with Osqp _ _ _ => om_sol | Qpoases Q => qm_sol Q | Bpmpd _ => bm_sol end.

Fixpoint all_some {A} (l : list (option A)) : option (list A) :=
  match l with
  | [] => Some []
  | Some a :: l => option_map (cons a) (all_some l)
  | None :: _ => None
  end.

Section Run.
  Context {C : Type} (inf : R) (lib : library) (F : prob).
  Local Notation n := (length (f_vars F)).

  (** model_; the passes finished and the one whose convex models exist, both with their QPs; the bounds set last; the number of
      QPs solved; the rest of the world *)
  Record world := {
    w_model : outcome (l_state lib); w_past : list (cpass R); w_now : option (cpass R); w_box : list R * list R; w_count : nat; w_rest : C }.
  Definition w_round (w : world) (p : cpass R) : round R := present inf (f_vars F) (f_lin F) (w_past w) p.
  Definition w_made (w : world) : nat :=
    created inf (f_vars F) (f_lin F) (w_past w) + match w_now w with Some p => length (r_vars (w_round w p)) | None => 0 end.
  (** calls of the Model interface *)
  Definition w_do (w : world) (cs : list (gcall R)) : world :=
    {| w_model := obind (w_model w) (fun s => l_steps inf lib (w_made w) s cs);
       w_past := w_past w; w_now := w_now w; w_box := w_box w; w_count := w_count w; w_rest := w_rest w |}.
  Definition with_now (w : world) (past : list (cpass R)) (now : option (cpass R)) : world :=
    {| w_model := w_model w; w_past := past; w_now := now; w_box := w_box w; w_count := w_count w; w_rest := w_rest w |}.
  Definition with_box (w : world) (b : list R * list R) : world :=
    {| w_model := w_model w; w_past := w_past w; w_now := w_now w; w_box := b; w_count := w_count w; w_rest := w_rest w |}.
  Definition with_rest (w : world) (c : C) : world :=
    {| w_model := w_model w; w_past := w_past w; w_now := w_now w; w_box := w_box w; w_count := w_count w; w_rest := c |}.

  (** the problem has been set up *)
  Definition first_world (c : C) : world :=
    {| w_model := l_steps inf lib 0 (l_empty lib) (setup (f_vars F) (f_lin F));
       w_past := []; w_now := None; w_box := ([], []); w_count := 0; w_rest := c |}.
  (** the destructors of the last pass, then optimizers.cpp 781-799 *)
  Definition w_convexify (w : world) (x mu : list R) : world :=
    let w := match w_now w with
             | None => w
             | Some p => with_now (w_do w (end_round (w_round w p))) (w_past w ++ [p]) None
             end in
    let p := {| p_costs := f_ccosts F x; p_cnts := f_ccnts F x; p_mu := mu; p_solves := [] |} in
    let r := w_round w p in
    with_now (w_do w (adds_v (r_vars r) ++ [GUpdate] ++ adds_c (r_cnts r) ++ [GUpdate; GSetQuad (r_obj r)])) (w_past w) (Some p).
  (** setTrustBoxConstraints, 151-172 *)
  Definition w_setbox (w : world) (x : list R) (box : R) : world :=
    let b := trust_boxes (f_lb F) (f_ub F) x box in
    with_box (w_do w [GSetBounds (seq 0 n) (map fst b) (map snd b)]) (map fst b, map snd b).
  (** model_->optimize(), 814, and model.getVarValues(model.getVars()), 390 *)
  Definition w_solved (w : world) (m : outcome (l_state lib)) : world :=
    {| w_model := m; w_past := w_past w;
       w_now := option_map (fun p => {| p_costs := p_costs p; p_cnts := p_cnts p; p_mu := p_mu p;
                                        p_solves := p_solves p ++ [(fst (w_box w), snd (w_box w), repeat 0 (w_count w))] |}) (w_now w);
       w_box := w_box w; w_count := S (w_count w); w_rest := w_rest w |}.
  Definition w_qp (w : world) : world * option (list R) :=
    match obind (w_model w) (l_optimize inf lib (w_count w)) with
    | Ok (s, CvxSolved) =>
        match all_some (var_values (l_back lib s) (l_sol lib s)) with
        | Some vals => (w_solved w (Ok s), Some vals)
        | None => (w_solved w Undef, None)
        end
    | Ok (s, _) => (w_solved w (Ok s), None)
    | NoFuel | Undef => (w_solved w Undef, None)
    end.
  (** evaluateModelCosts and evaluateModelCntViols, 216-233 *)
  Definition w_mcosts (w : world) (vals : list R) : list R :=
    match w_model w, w_now w with
    | Ok s, Some p => model_costs (l_back lib s) (snd (fst (pass_objs (created inf (f_vars F) (f_lin F) (w_past w)) p))) vals
    | _, _ => []
    end.
  Definition w_mviols (w : world) (vals : list R) : list R :=
    match w_model w, w_now w with
    | Ok s, Some p => model_viols (l_back lib s) (p_cnts p) vals
    | _, _ => []
    end.

  (** getClosestFeasiblePoint with its default delta, modeling.hpp 243 *)
  Definition run_env (callback : C -> C) (clock : C -> C * R) : oenv R world :=
    {| o_ncnt := f_ncnt F; o_project := fun x => closest_feasible (f_lb F) (f_ub F) x (1 / 1000);
       o_costs := f_costs F; o_viols := f_viols F; o_convexify := w_convexify; o_setbox := w_setbox; o_qp := w_qp;
       o_mcosts := w_mcosts; o_mviols := w_mviols;
       o_callback := fun w => with_rest w (callback (w_rest w));
       o_clock := fun w => let (c, t) := clock (w_rest w) in (with_rest w c, t) |}.
  (** a new optimizer, after initialize(x) *)
  Definition run_start (x : list R) (box : R) (c : C) : osst R world :=
    {| o_x := x; o_cost_vals := []; o_cnt_viols := []; o_nfe := 0; o_nqp := 0; o_box := box; o_merit := [];
       o_world := first_world c; o_trace := [] |}.
  Definition run_sqp (P : oparams R) (callback : C -> C) (clock : C -> C * R) (fuel : nat) (x : list R) (box : R) (c : C) :=
    optimize P (run_env callback clock) fuel (run_start x box c).
End Run.
Arguments w_model {C lib}. Arguments w_past {C lib}. Arguments w_now {C lib}. Arguments w_box {C lib}. Arguments w_count {C lib}. Arguments w_rest {C lib}.
Arguments w_round {C} inf {lib}. Arguments w_made {C} inf {lib}. Arguments with_now {C lib}. Arguments with_box {C lib}. Arguments with_rest {C lib}.
Arguments w_solved {C lib}. Arguments w_mcosts {C} inf {lib}. Arguments w_mviols {C lib}.
