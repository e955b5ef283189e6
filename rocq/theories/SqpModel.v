(** * Model of trajopt_sqp::TrustRegionSQPSolver

    Source: trajopt_optimizers/trajopt_sqp/src/trust_region_sqp_solver.cpp
    and include/trajopt_sqp/types.h.

    The QP problem, the QP solver, the callbacks and the clock are oracles collected in the
    record [env]; they act on an arbitrary world state [W], so any history-dependent behaviour
    is covered.  The exact costs and exact constraint violations are functions of the decision
    variables (an NLP); everything else is arbitrary.

    [trace] is a ghost: the sequence of observable actions, newest first.

    Simplifications: logging and printing are omitted; [int] counters are unbounded [Z];
    [Eigen] asserts are the outcome [Undef]; the solver-side data transfer (lines 206-244,
    288, 299, 342, 365) is one oracle call each. *)
From Coq Require Import List ZArith Bool.
From Verif Require Import Num.
From Verif Require Export Common.
Import ListNotations.
Local Open Scope num_scope.

(** types.h 216-225 *)
Inductive sqp_status :=
  kRunning | kConverged | kIterationLimit | kPenaltyIterationLimit | kTimeLimit
| kQPSolveFailed | kStoppedByCallback.
Definition status_eqb (a b : sqp_status) : bool :=
  match a, b with
  | kRunning, kRunning | kConverged, kConverged | kIterationLimit, kIterationLimit
  | kPenaltyIterationLimit, kPenaltyIterationLimit | kTimeLimit, kTimeLimit
  | kQPSolveFailed, kQPSolveFailed | kStoppedByCallback, kStoppedByCallback => true
  | _, _ => false
  end.

Section Sqp.
  Context {T : Type} {NT : Num T}.

  (** types.h 99-141 (unused fields log_results, log_dir dropped) *)
  Record sqp_params := {
    improve_ratio_threshold : T;
    min_trust_box_size : T;
    min_approx_improve : T;
    min_approx_improve_frac : T;
    max_iterations : Z;
    trust_shrink_ratio : T;
    trust_expand_ratio : T;
    cnt_tolerance : T;
    max_merit_coeff_increases : T;
    max_qp_solver_failures : Z;
    merit_coeff_increase_ratio : T;
    max_time : T;
    initial_merit_error_coeff : T;
    inflate_constraints_individually : bool;
    initial_trust_box_size : T
  }.

  (** One column ("best_" or "new_") of SQPResults, types.h 144-208. *)
  Record evals := {
    e_vars : list T;
    e_merit : T;               (* exact merit *)
    e_viols : list T;          (* exact constraint violations *)
    e_costs : list T;          (* exact costs *)
    e_amerit : T;              (* approximate (convexified) merit *)
    e_aviols : list T;
    e_acosts : list T
  }.

  Record results := {
    best : evals;
    new : evals;
    approx_improve : T;        (* approx_merit_improve *)
    exact_improve : T;         (* exact_merit_improve *)
    improve_ratio : T;         (* merit_improve_ratio *)
    box_size : list T;
    merit_coeffs : list T;     (* merit_error_coeffs *)
    penalty_it : Z;
    convexify_it : Z;
    tr_it : Z;
    overall_it : Z
  }.

  (** Ghost events. *)
  Inductive event :=
  | EvConvexify                              (* convexify() and transfer to the QP solver *)
  | EvQP (ok : bool)                         (* qp_solver->solve() *)
  | EvCallback (ok : bool)                   (* all callbacks called; conjunction of answers *)
  | EvAccept (old_merit new_merit : T)       (* step accepted *)
  | EvReject                                 (* step rejected, box shrunk *)
  | EvPenalty (viols before after : list T). (* merit coefficients adjusted *)

  Context {W : Type}.

  Record env := {
    n_nlp : nat;                                        (* getNumNLPVars *)
    n_cnt : nat;                                        (* getNumNLPConstraints *)
    exact_costs : list T -> list T;                     (* getExactCosts *)
    exact_viols : list T -> list T;                     (* getExactConstraintViolations *)
    convexify : W -> list T -> list T -> list T -> W;   (* vars, box, merit coefficients *)
    update_bounds : W -> list T -> list T -> W;         (* vars, box *)
    qp_solve : W -> W * option (list T);                (* solve + getSolution *)
    convex_viols : W -> list T -> list T;
    convex_costs : W -> list T -> list T;
    callbacks : W -> results -> W * list bool;          (* answers of the registered callbacks *)
    clock : W -> W * T                                  (* elapsed seconds since solve() began *)
  }.

  Record sst := {
    status : sqp_status;
    res : results;
    p_vars : list T;        (* variables stored in the QP problem *)
    p_box : list T;         (* box size stored in the QP problem *)
    p_merit : list T;       (* constraint merit coefficients stored in the QP problem *)
    world : W;
    trace : list event
  }.

  Variable P : sqp_params.
  Variable E : env.

  Definition set_status (s : sst) (x : sqp_status) : sst :=
    {| status := x; res := res s; p_vars := p_vars s; p_box := p_box s; p_merit := p_merit s;
       world := world s; trace := trace s |}.
  Definition set_res (s : sst) (r : results) : sst :=
    {| status := status s; res := r; p_vars := p_vars s; p_box := p_box s; p_merit := p_merit s;
       world := world s; trace := trace s |}.
  Definition set_world (s : sst) (w : W) : sst :=
    {| status := status s; res := res s; p_vars := p_vars s; p_box := p_box s; p_merit := p_merit s;
       world := w; trace := trace s |}.
  Definition emit (s : sst) (e : event) : sst :=
    {| status := status s; res := res s; p_vars := p_vars s; p_box := p_box s; p_merit := p_merit s;
       world := world s; trace := e :: trace s |}.

  (** QPProblem::setVariables reads getNumNLPVars() entries (trajopt_qp_problem.cpp 700-716,
      ifopt_qp_problem.cpp 143-147). *)
  Definition set_variables (s : sst) (x : list T) : sst :=
    {| status := status s; res := res s; p_vars := firstn (n_nlp E) x; p_box := p_box s;
       p_merit := p_merit s; world := world s; trace := trace s |}.

  Definition set_pbox (s : sst) (b : list T) : sst :=
    {| status := status s; res := res s; p_vars := p_vars s; p_box := b; p_merit := p_merit s;
       world := world s; trace := trace s |}.

  Definition with_box (r : results) (b : list T) : results :=
    {| best := best r; new := new r; approx_improve := approx_improve r; exact_improve := exact_improve r;
       improve_ratio := improve_ratio r; box_size := b; merit_coeffs := merit_coeffs r;
       penalty_it := penalty_it r; convexify_it := convexify_it r; tr_it := tr_it r; overall_it := overall_it r |}.
  Definition with_best (r : results) (b : evals) : results :=
    {| best := b; new := new r; approx_improve := approx_improve r; exact_improve := exact_improve r;
       improve_ratio := improve_ratio r; box_size := box_size r; merit_coeffs := merit_coeffs r;
       penalty_it := penalty_it r; convexify_it := convexify_it r; tr_it := tr_it r; overall_it := overall_it r |}.
  Definition with_merit (r : results) (m : list T) : results :=
    {| best := best r; new := new r; approx_improve := approx_improve r; exact_improve := exact_improve r;
       improve_ratio := improve_ratio r; box_size := box_size r; merit_coeffs := m;
       penalty_it := penalty_it r; convexify_it := convexify_it r; tr_it := tr_it r; overall_it := overall_it r |}.
  Definition with_its (r : results) (p c t o : Z) : results :=
    {| best := best r; new := new r; approx_improve := approx_improve r; exact_improve := exact_improve r;
       improve_ratio := improve_ratio r; box_size := box_size r; merit_coeffs := merit_coeffs r;
       penalty_it := p; convexify_it := c; tr_it := t; overall_it := o |}.

  (** costs.sum() + violations.dot(merit_error_coeffs): lines 78, 393, 405 *)
  Definition merit_of (costs viols coeffs : list T) : T := vsum costs + vdot viols coeffs.

  (** trust_region_sqp_solver.cpp 66-70 *)
  Definition setBoxSize (s : sst) (b : T) : sst :=
    let s := set_pbox s (repeat b (n_nlp E)) in
    set_res s (with_box (res s) (p_box s)).

  (** trust_region_sqp_solver.cpp 72-79 *)
  Definition constraintMeritCoeffChanged (s : sst) : sst :=
    let r := res s in
    let b := best r in
    let b' := {| e_vars := e_vars b;
                 e_merit := merit_of (e_costs b) (e_viols b) (merit_coeffs r);
                 e_viols := e_viols b; e_costs := e_costs b;
                 e_amerit := e_amerit b; e_aviols := e_aviols b; e_acosts := e_acosts b |} in
    {| status := status s; res := with_best r b'; p_vars := p_vars s; p_box := p_box s;
       p_merit := merit_coeffs r; world := world s; trace := trace s |}.

  (** SQPResults constructor, types.cpp 63-79 (approximate columns start as zero vectors;
      numeric_limits max of the merits is not used before being overwritten). *)
  Definition blank_evals : evals :=
    {| e_vars := repeat nzero (n_nlp E); e_merit := nzero; e_viols := repeat nzero (n_cnt E);
       e_costs := []; e_amerit := nzero; e_aviols := repeat nzero (n_cnt E); e_acosts := [] |}.

  (** trust_region_sqp_solver.cpp 45-64; [vars0] are the variables held by the problem. *)
  Definition init (vars0 : list T) (w : W) : sst :=
    let b := {| e_vars := vars0; e_merit := nzero; e_viols := exact_viols E vars0;
                e_costs := exact_costs E vars0; e_amerit := nzero;
                e_aviols := repeat nzero (n_cnt E); e_acosts := [] |} in
    let r := {| best := b; new := blank_evals; approx_improve := nzero; exact_improve := nzero;
                improve_ratio := nzero; box_size := repeat none_ (n_nlp E);
                merit_coeffs := repeat (initial_merit_error_coeff P) (n_cnt E);
                penalty_it := 0; convexify_it := 0; tr_it := 0; overall_it := 0 |} in
    let s := {| status := kRunning; res := r; p_vars := vars0; p_box := []; p_merit := [];
                world := w; trace := [] |} in
    constraintMeritCoeffChanged (setBoxSize s (initial_trust_box_size P)).

  (** scaleBoxSize + updateBounds + results_.box_size = getBoxSize():
      lines 287-289, 341-343, 364-366 *)
  Definition scale_box (s : sst) (k : T) : sst :=
    let s := set_pbox s (vscale k (p_box s)) in
    let s := set_world s (update_bounds E (world s) (p_vars s) (p_box s)) in
    set_res s (with_box (res s) (p_box s)).

  (** lines 298-300 *)
  Definition min_box (s : sst) : sst :=
    let s := set_pbox s (repeat (min_trust_box_size P) (n_nlp E)) in
    let s := set_world s (update_bounds E (world s) (p_vars s) (p_box s)) in
    set_res s (with_box (res s) (p_box s)).

  (** trust_region_sqp_solver.cpp 373-439 (returns the status the caller stores) *)
  Definition solveQPProblem (s : sst) : sst * sqp_status :=
    let '(w, sol) := qp_solve E (world s) in
    match sol with
    | None =>
        let s := emit (set_world s w) (EvQP false) in
        (set_variables s (e_vars (best (res s))), kQPSolveFailed)
    | Some x =>
        let s := emit (set_world s w) (EvQP true) in
        let r := res s in
        let s := set_variables s x in
        let av := convex_viols E (world s) x in
        let ac := convex_costs E (world s) x in
        let am := merit_of ac av (merit_coeffs r) in
        let ai := e_merit (best r) - am in
        let c := exact_costs E (p_vars s) in
        let v := exact_viols E (p_vars s) in
        let m := merit_of c v (merit_coeffs r) in
        let ei := e_merit (best r) - m in
        let ratio := if nabs ai <? ndec 1 (-12) then nzero else ei / ai in
        let r' := {| best := best r;
                     new := {| e_vars := x; e_merit := m; e_viols := v; e_costs := c;
                               e_amerit := am; e_aviols := av; e_acosts := ac |};
                     approx_improve := ai; exact_improve := ei; improve_ratio := ratio;
                     box_size := box_size r; merit_coeffs := merit_coeffs r;
                     penalty_it := penalty_it r; convexify_it := convexify_it r;
                     tr_it := tr_it r; overall_it := overall_it r |} in
        let s := set_variables (set_res s r') (e_vars (best r)) in
        let '(w', answers) := callbacks E (world s) r' in
        let ok := forallb (fun b => b) answers in
        let s := emit (set_world s w') (EvCallback ok) in
        (s, if ok then kRunning else kStoppedByCallback)
    end.

  (** acceptance of a step, lines 349-366 *)
  Definition accept (s : sst) : sst :=
    let r := res s in
    let n := new r in
    let s := emit s (EvAccept (e_merit (best r)) (e_merit n)) in
    let b := {| e_vars := e_vars n; e_merit := e_merit n; e_viols := e_viols n; e_costs := e_costs n;
                e_amerit := e_amerit n; e_aviols := e_aviols n; e_acosts := e_acosts n |} in
    let s := set_res s (with_best r b) in
    let s := set_variables s (e_vars (best (res s))) in
    scale_box s (trust_expand_ratio P).

  (** Exit of the body of the trust-region loop: continue or return. *)
  Inductive tr_exit := TrContinue (failures : Z) (s : sst) | TrReturn (s : sst).

  (** one iteration of the while loop, lines 268-369 *)
  Definition tr_body (failures : Z) (s : sst) : tr_exit :=
    let r := res s in
    let s := set_res s (with_its r (penalty_it r) (convexify_it r) (tr_it r + 1) (overall_it r + 1)) in
    let '(s, st) := solveQPProblem s in
    let s := set_status s st in
    match st with
    | kStoppedByCallback => TrReturn s
    | kRunning =>
        let r := res s in
        if approx_improve r <? min_approx_improve P then TrReturn (set_status s kConverged)
        else
          let denom := nmax (nabs (e_merit (best r))) (ndec 1 (-12)) in
          let frac := approx_improve r / denom in
          if frac <? min_approx_improve_frac P then TrReturn (set_status s kConverged)
          else if (exact_improve r <? nzero) || (improve_ratio r <? improve_ratio_threshold P)
          then TrContinue failures (scale_box (emit s EvReject) (trust_shrink_ratio P))
          else TrReturn (accept s)
    | _ =>
        let failures := (failures + 1)%Z in
        if (failures <? max_qp_solver_failures P)%Z
        then TrContinue failures (scale_box s (trust_shrink_ratio P))
        else if (failures =? max_qp_solver_failures P)%Z
        then TrContinue failures (min_box s)
        else TrReturn s
    end.

  (** trust_region_sqp_solver.cpp 262-371 *)
  Fixpoint tr_loop (fuel : nat) (failures : Z) (s : sst) : outcome sst :=
    match vmaxc (box_size (res s)) with
    | None => Undef
    | Some m =>
        if m >=? min_trust_box_size P then
          match fuel with
          | O => NoFuel
          | S fuel =>
              match tr_body failures s with
              | TrReturn s => Ok s
              | TrContinue failures s => tr_loop fuel failures s
              end
          end
        else Ok s
    end.

  Definition runTrustRegionLoop (fuel : nat) (s : sst) : outcome sst :=
    let r := res s in
    tr_loop fuel 0 (set_res s (with_its r (penalty_it r) (convexify_it r) 0 (overall_it r))).

  (** trust_region_sqp_solver.cpp 202-260 *)
  Definition stepSQPSolver (fuel : nat) (s : sst) : outcome (sst * bool) :=
    let r := res s in
    let s := set_res s (with_its r (penalty_it r) (convexify_it r + 1) (tr_it r) (overall_it r)) in
    let s := emit (set_world s (convexify E (world s) (p_vars s) (p_box s) (p_merit s))) EvConvexify in
    obind (runTrustRegionLoop fuel s) (fun s =>
      if status_eqb (status s) kConverged then Ok (s, true)
      else match vmaxc (box_size (res s)) with
           | None => Undef
           | Some m => if m <? min_trust_box_size P then Ok (set_status s kConverged, true)
                       else Ok (s, false)
           end).

  (** trust_region_sqp_solver.cpp 161-177 *)
  Definition verifySQPSolverConvergence (s : sst) : bool :=
    match vmaxc (e_viols (best (res s))) with
    | None => true
    | Some m => m <? cnt_tolerance P
    end.

  (** lines 184-191 *)
  Fixpoint inflate (viols coeffs : list T) : list T :=
    match viols, coeffs with
    | v :: vs, c :: cs =>
        (if v >? cnt_tolerance P then c * merit_coeff_increase_ratio P else c) :: inflate vs cs
    | _, cs => cs
    end.

  (** trust_region_sqp_solver.cpp 179-200 *)
  Definition adjustPenalty (s : sst) : outcome sst :=
    let r := res s in
    let before := merit_coeffs r in
    let viols := e_viols (best r) in
    if inflate_constraints_individually P && negb (length viols =? length before)%nat then Undef
    else
      let after := if inflate_constraints_individually P then inflate viols before
                   else map (fun c => c * merit_coeff_increase_ratio P) before in
      let s := emit (set_res s (with_merit r after)) (EvPenalty viols before after) in
      match box_size (res s) with
      | [] => Undef
      | b0 :: _ =>
          let s := setBoxSize s (nfmax b0 (min_trust_box_size P / trust_shrink_ratio P * ndec 15 (-1))) in
          Ok (constraintMeritCoeffChanged s)
      end.

  (** the convexification loop, lines 105-124; [k] counts the remaining iterations of
      [convex_iteration = 1 .. 99] *)
  Fixpoint convex_loop (fuel : nat) (k : nat) (s : sst) : outcome sst :=
    match k with
    | O => Ok s
    | S k =>
        let '(w, elapsed) := clock E (world s) in
        let s := set_world s w in
        if elapsed >? max_time P then Ok (set_status s kTimeLimit)
        else if (overall_it (res s) >=? max_iterations P)%Z then Ok (set_status s kIterationLimit)
        else obind (stepSQPSolver fuel s) (fun '(s, stop) =>
          if stop then Ok s else convex_loop fuel k s)
    end.

  (** the penalty loop, lines 99-145 *)
  Fixpoint penalty_loop (fuel : nat) (pfuel : nat) (i : Z) (s : sst) : outcome sst :=
    if nofZ i <? max_merit_coeff_increases P then
      match pfuel with
      | O => NoFuel
      | S pfuel =>
          let r := res s in
          let s := set_res s (with_its r i 0 (tr_it r) (overall_it r)) in
          obind (convex_loop fuel 99 s) (fun s =>
            if verifySQPSolverConvergence s then Ok (set_status s kConverged)
            else if status_eqb (status s) kIterationLimit || status_eqb (status s) kTimeLimit then Ok s
            else obind (adjustPenalty (set_status s kRunning)) (fun s => penalty_loop fuel pfuel (i + 1) s))
      end
    else Ok s.

  (** trust_region_sqp_solver.cpp 87-159 *)
  Definition solve (fuel pfuel : nat) (vars0 : list T) (w : W) : outcome sst :=
    obind (penalty_loop fuel pfuel 0 (init vars0 w)) (fun s =>
      let s := if status_eqb (status s) kRunning then set_status s kPenaltyIterationLimit else s in
      Ok (set_variables s (e_vars (best (res s))))).

End Sqp.

Arguments sqp_params : clear implicits.
Arguments evals : clear implicits.
Arguments results : clear implicits.
Arguments event : clear implicits.
Arguments env : clear implicits.
Arguments sst : clear implicits.
