(** * Model of sco::BasicTrustRegionSQP::optimize

    Source: trajopt_sco/src/optimizers.cpp (and include/trajopt_sco/optimizers.hpp).

    Oracles: the costs and constraint violations are functions of x; the convexification, the
    convex solver, the user callbacks and the clock act on an arbitrary world state [W].
    Simplification: callbacks receive a mutable reference to the results; they are assumed not
    to write to it.  [getClosestFeasiblePoint] is an arbitrary function here (its own model is in
    ModelingModel.v).  Logging and file output are omitted.  [o_trace] is a ghost. *)
From Coq Require Import List ZArith Bool.
From Verif Require Import Num Common.
Import ListNotations.
Local Open Scope num_scope.

(** optimizers.hpp 25-33 *)
Inductive ostatus :=
  OPT_CONVERGED | OPT_SCO_ITERATION_LIMIT | OPT_PENALTY_ITERATION_LIMIT | OPT_TIME_LIMIT | OPT_FAILED.

Section Sco.
  Context {T : Type} {NT : Num T}.

  (** optimizers.hpp BasicTrustRegionSQPParameters; [trust_box_size] lives in the state because
      optimize() modifies it. *)
  Record oparams := {
    oimprove_ratio_threshold : T;
    omin_trust_box_size : T;
    omin_approx_improve : T;
    omin_approx_improve_frac : T;
    omax_iter : Z;
    otrust_shrink_ratio : T;
    otrust_expand_ratio : T;
    ocnt_tolerance : T;
    omax_merit_coeff_increases : T;
    omax_qp_solver_failures : Z;
    omerit_coeff_increase_ratio : T;
    omax_time : T;
    oinitial_merit_error_coeff : T;
    oinflate_individually : bool
  }.

  Inductive oevent :=
  | OEval                                     (* costs and violations of x evaluated *)
  | OConvexify
  | OQP (ok : bool)
  | OAccept (old_merit new_merit : T)
  | OReject
  | OPenalty (viols before after : list T).

  Context {W : Type}.

  Record oenv := {
    o_ncnt : nat;                                   (* number of constraints *)
    o_project : list T -> list T;                   (* getClosestFeasiblePoint *)
    o_costs : list T -> list T;                     (* evaluateCosts *)
    o_viols : list T -> list T;                     (* evaluateConstraintViols *)
    o_convexify : W -> list T -> list T -> W;       (* x, merit coefficients *)
    o_setbox : W -> list T -> T -> W;               (* setTrustBoxConstraints: x, box size *)
    o_qp : W -> W * option (list T);                (* optimize + getVarValues *)
    o_mcosts : W -> list T -> list T;               (* evaluateModelCosts *)
    o_mviols : W -> list T -> list T;               (* evaluateModelCntViols *)
    o_callback : W -> W;
    o_clock : W -> W * T
  }.

  Record osst := {
    o_x : list T;
    o_cost_vals : list T;
    o_cnt_viols : list T;
    o_nfe : Z;            (* n_func_evals *)
    o_nqp : Z;            (* n_qp_solves *)
    o_box : T;            (* param_.trust_box_size *)
    o_merit : list T;     (* merit_error_coeffs *)
    o_world : W;
    o_trace : list oevent
  }.

  Variable P : oparams.
  Variable E : oenv.

  Definition with_oworld (s : osst) (w : W) : osst :=
    {| o_x := o_x s; o_cost_vals := o_cost_vals s; o_cnt_viols := o_cnt_viols s; o_nfe := o_nfe s;
       o_nqp := o_nqp s; o_box := o_box s; o_merit := o_merit s; o_world := w; o_trace := o_trace s |}.
  Definition with_obox (s : osst) (b : T) : osst :=
    {| o_x := o_x s; o_cost_vals := o_cost_vals s; o_cnt_viols := o_cnt_viols s; o_nfe := o_nfe s;
       o_nqp := o_nqp s; o_box := b; o_merit := o_merit s; o_world := o_world s; o_trace := o_trace s |}.
  Definition oemit (s : osst) (e : oevent) : osst :=
    {| o_x := o_x s; o_cost_vals := o_cost_vals s; o_cnt_viols := o_cnt_viols s; o_nfe := o_nfe s;
       o_nqp := o_nqp s; o_box := o_box s; o_merit := o_merit s; o_world := o_world s;
       o_trace := e :: o_trace s |}.
  Definition with_counts (s : osst) (nfe nqp : Z) : osst :=
    {| o_x := o_x s; o_cost_vals := o_cost_vals s; o_cnt_viols := o_cnt_viols s; o_nfe := nfe;
       o_nqp := nqp; o_box := o_box s; o_merit := o_merit s; o_world := o_world s; o_trace := o_trace s |}.
  Definition with_point (s : osst) (x c v : list T) : osst :=
    {| o_x := x; o_cost_vals := c; o_cnt_viols := v; o_nfe := o_nfe s; o_nqp := o_nqp s;
       o_box := o_box s; o_merit := o_merit s; o_world := o_world s; o_trace := o_trace s |}.
  Definition with_omerit (s : osst) (m : list T) : osst :=
    {| o_x := o_x s; o_cost_vals := o_cost_vals s; o_cnt_viols := o_cnt_viols s; o_nfe := o_nfe s;
       o_nqp := o_nqp s; o_box := o_box s; o_merit := m; o_world := o_world s; o_trace := o_trace s |}.

  (** vecSum(costs) + vecDot(viols, coeffs): optimizers.cpp 414-416 *)
  Definition omerit_of (c v m : list T) : T := vsum c + vdot v m.

  (** results_.cnt_viols.empty() || vecMax(results_.cnt_viols) < param_.cnt_tolerance:
      lines 745, 927, 939 *)
  Definition ofeasible (s : osst) : bool :=
    match vmaxc (o_cnt_viols s) with
    | None => true
    | Some m => m <? ocnt_tolerance P
    end.

  Inductive oexit := XRetry (failures : Z) (s : osst)   (* next iteration of the while loop *)
                   | XBreak (s : osst)                  (* step accepted, break *)
                   | XPenalty (s : osst)                (* goto penaltyadjustment *)
                   | XFailed (s : osst).                (* OPT_FAILED, goto cleanup *)

  (** one iteration of the trust-region loop, lines 813-913 (with
      BasicTrustRegionSQPResults::update, lines 380-426, inlined) *)
  Definition otr_body (failures : Z) (s : osst) : outcome oexit :=
    let s := with_oworld s (o_setbox E (o_world s) (o_x s) (o_box s)) in
    let '(w, sol) := o_qp E (o_world s) in
    let s := with_counts (with_oworld s w) (o_nfe s) (o_nqp s + 1) in
    match sol with
    | None =>
        let s := oemit s (OQP false) in
        if (failures <? omax_qp_solver_failures P - 1)%Z
        then Ok (XRetry (failures + 1) (with_obox s (o_box s * otrust_shrink_ratio P)))
        else if (failures =? omax_qp_solver_failures P - 1)%Z
        then Ok (XRetry (failures + 1) (with_obox s (omin_trust_box_size P)))
        else Ok (XFailed s)
    | Some vals =>
        let s := oemit s (OQP true) in
        let mc := o_mcosts E (o_world s) vals in
        let mv := o_mviols E (o_world s) vals in
        let new_x := firstn (length (o_x s)) vals in
        let nc := o_costs E new_x in
        let nv := o_viols E new_x in
        if (length vals <? length (o_x s))%nat
           || negb (length (o_cnt_viols s) =? length (o_merit s))%nat
           || negb (length mv =? length (o_merit s))%nat
           || negb (length nv =? length (o_merit s))%nat then Undef
        else
          let old_merit := omerit_of (o_cost_vals s) (o_cnt_viols s) (o_merit s) in
          let model_merit := omerit_of mc mv (o_merit s) in
          let new_merit := omerit_of nc nv (o_merit s) in
          let approx := old_merit - model_merit in
          let exact := old_merit - new_merit in
          let ratio := exact / approx in
          let s := with_counts s (o_nfe s + 1) (o_nqp s) in
          if approx <? omin_approx_improve P then Ok (XPenalty s)
          else if approx / old_merit <? omin_approx_improve_frac P then Ok (XPenalty s)
          else if (exact <? nzero) || (ratio <? oimprove_ratio_threshold P)
          then Ok (XRetry failures (with_obox (oemit s OReject) (o_box s * otrust_shrink_ratio P)))
          else Ok (XBreak (with_obox (with_point (oemit s (OAccept old_merit new_merit)) new_x nc nv)
                                     (o_box s * otrust_expand_ratio P)))
    end.

  (** the while loop, lines 810-914; the normal exit and the break are both [XBreak] *)
  Fixpoint otr_loop (fuel : nat) (failures : Z) (s : osst) : outcome oexit :=
    if o_box s >=? omin_trust_box_size P then
      match fuel with
      | O => NoFuel
      | S fuel =>
          obind (otr_body failures s) (fun x =>
            match x with
            | XRetry failures s => otr_loop fuel failures s
            | y => Ok y
            end)
      end
    else Ok (XBreak s).

  Inductive ojump := JPenalty (s : osst) | JCleanup (st : ostatus) (s : osst).

  (** lines 753-799: callbacks, first evaluation, convexification *)
  Definition oprepare (s : osst) : outcome osst :=
    let s := with_oworld s (o_callback E (o_world s)) in
    let os :=
      match o_cost_vals s, o_cnt_viols s with
      | [], [] =>
          if (o_nfe s =? 0)%Z
          then Ok (with_counts (oemit (with_point s (o_x s) (o_costs E (o_x s)) (o_viols E (o_x s))) OEval)
                               1 (o_nqp s))
          else Undef
      | _, _ => Ok s
      end in
    obind os (fun s =>
      Ok (oemit (with_oworld s (o_convexify E (o_world s) (o_x s) (o_merit s))) OConvexify)).

  (** the sqp loop, lines 737-936 *)
  Fixpoint osqp_loop (fuel : nat) (k : nat) (iter : Z) (s : osst) : outcome ojump :=
    match k with
    | O => NoFuel
    | S k =>
        let '(w, elapsed) := o_clock E (o_world s) in
        let s := with_oworld s w in
        if elapsed >? omax_time P
        then Ok (JCleanup (if ofeasible s then OPT_CONVERGED else OPT_TIME_LIMIT) s)
        else
          obind (oprepare s) (fun s =>
          obind (otr_loop fuel 0 s) (fun x =>
            match x with
            | XPenalty s => Ok (JPenalty s)
            | XFailed s => Ok (JCleanup OPT_FAILED s)
            | XRetry _ s => Undef                       (* not produced by [otr_loop] *)
            | XBreak s =>
                if o_box s <? omin_trust_box_size P then Ok (JPenalty s)
                else if (iter >=? omax_iter P)%Z
                then Ok (JCleanup (if ofeasible s then OPT_CONVERGED else OPT_SCO_ITERATION_LIMIT) s)
                else osqp_loop fuel k (iter + 1) s
            end))
    end.

  (** lines 950-958 *)
  Fixpoint oinflate (viols coeffs : list T) : list T :=
    match viols, coeffs with
    | v :: vs, c :: cs =>
        (if v >? ocnt_tolerance P then c * omerit_coeff_increase_ratio P else c) :: oinflate vs cs
    | _, cs => cs
    end.

  (** lines 945-968 *)
  Definition oadjust (s : osst) : outcome osst :=
    if oinflate_individually P && negb (length (o_cnt_viols s) =? length (o_merit s))%nat then Undef
    else
      let after := if oinflate_individually P then oinflate (o_cnt_viols s) (o_merit s)
                   else map (fun c => c * omerit_coeff_increase_ratio P) (o_merit s) in
      let s := with_omerit (oemit s (OPenalty (o_cnt_viols s) (o_merit s) after)) after in
      Ok (with_obox s (nfmax (o_box s) (omin_trust_box_size P / otrust_shrink_ratio P * ndec 15 (-1)))).

  (** the merit adjustment loop, lines 735-971 *)
  Fixpoint omerit_loop (fuel : nat) (k : nat) (i : Z) (s : osst) : outcome (ostatus * osst) :=
    if nofZ i <? omax_merit_coeff_increases P then
      match k with
      | O => NoFuel
      | S k =>
          obind (osqp_loop fuel fuel 1 s) (fun j =>
            match j with
            | JCleanup st s => Ok (st, s)
            | JPenalty s =>
                if ofeasible s then Ok (OPT_CONVERGED, s)
                else obind (oadjust s) (fun s => omerit_loop fuel k (i + 1) s)
            end)
      end
    else Ok (OPT_PENALTY_ITERATION_LIMIT, s).

  (** optimize(), lines 699-991.  [None] is the exception thrown when x is empty.  The state
      passed in holds the results of earlier calls (or of initialize()). *)
  Definition optimize (fuel : nat) (s : osst) : outcome (option (ostatus * osst)) :=
    match o_x s with
    | [] => Ok None
    | _ =>
        let s := with_omerit s (repeat (oinitial_merit_error_coeff P) (o_ncnt E)) in
        let s := with_point s (o_project E (o_x s)) (o_cost_vals s) (o_cnt_viols s) in
        obind (omerit_loop fuel fuel 0 s) (fun '(st, s) =>
          Ok (Some (st, with_oworld s (o_callback E (o_world s)))))
    end.

  (** results_.total_cost, line 976 *)
  Definition ototal_cost (s : osst) : T := vsum (o_cost_vals s).

  (** Optimizer::initialize, lines 127-136 (called with a vector of the right length) *)
  Definition oinitialize (x : list T) (s : osst) : osst :=
    {| o_x := x; o_cost_vals := []; o_cnt_viols := []; o_nfe := 0; o_nqp := 0; o_box := o_box s;
       o_merit := []; o_world := o_world s; o_trace := o_trace s |}.
End Sco.

Arguments oparams : clear implicits.
Arguments oevent : clear implicits.
Arguments oenv : clear implicits.
Arguments osst : clear implicits.
