(** * Properties of sco::BasicTrustRegionSQP::optimize (C09-C12, C71) *)
From Coq Require Import List ZArith QArith Reals Lra Bool Floats.SpecFloat.
From Verif Require Import Num NumFacts Common ScoOptModel ScoOptSpec ScoOptProofs ScoOptExamples.
Import ListNotations.

(** A run with projection, an accepted step, a rejected step and a failed QP: it meets the
    hypotheses of C09_converged_feasible_partial, C10_values_of_x_partial, C12_convexifications and,
    read over the reals, of the other theorems. *)
Example C09_C10_C12_ex : exists s, ogood = Ok (Some (OPT_CONVERGED, s)) /\
  o_x s = [1%Q] /\ o_cost_vals s = [1%Q] /\ o_cnt_viols s = [0%Q] /\ oconvexifications (o_trace s) = 3%nat.
Proof. eexists. split; [vm_compute; reflexivity|]. repeat split; reflexivity. Qed.

(** ** C09 *)
(** After initialize(), OPT_CONVERGED means: either nothing was ever evaluated (time limit), or every
    violation at the returned x is below the tolerance. *)
Theorem C09_converged_feasible_partial :
  forall (T : Type) (NT : Num T) (W : Type) (P : oparams T) (E : oenv T W) (OL : OrdLaws T) fuel x s0 s,
    o_trace s0 = [] ->
    optimize P E fuel (oinitialize x s0) = Ok (Some (OPT_CONVERGED, s)) ->
    (o_nfe s = 0%Z /\ o_trace s = []) \/
    (o_cnt_viols s = o_viols E (o_x s) /\
     Forall (fun v => nltb v (ocnt_tolerance P) = true) (o_viols E (o_x s))).
Proof. exact @optimize_converged. Qed.
Print Assumptions C09_converged_feasible_partial.

(** The first case does occur with a violated constraint: the time limit is tested before the
    first evaluation, and an empty violation vector counts as feasible. *)
Theorem C09_converged_feasible_refuted :
  exists s, olate = Ok (Some (OPT_CONVERGED, s)) /\ o_viols oexq (o_x s) = [1%Q] /\
    ocnt_tolerance (@odefaults Q _ 50 3) = ndec 1 (-4).
Proof. eexists. split; [vm_compute; reflexivity|]. repeat split; reflexivity. Qed.
Print Assumptions C09_converged_feasible_refuted.

(** With binary64 arithmetic a NaN violation is invisible to vecMax, so OPT_CONVERGED is returned. *)
Theorem C09_nan_violation_refuted :
  exists s, onan = Ok (Some (OPT_CONVERGED, s)) /\ o_cnt_viols s = [f64_ofZ 0; S754_nan].
Proof. eexists. split; [vm_compute; reflexivity|]. repeat split; reflexivity. Qed.
Print Assumptions C09_nan_violation_refuted.

(** ** C10 *)
Theorem C10_values_of_x_partial :
  forall (T : Type) (NT : Num T) (W : Type) (P : oparams T) (E : oenv T W) fuel x s0 st s,
    o_trace s0 = [] ->
    optimize P E fuel (oinitialize x s0) = Ok (Some (st, s)) ->
    (o_cost_vals s = [] /\ o_cnt_viols s = [] /\ o_nfe s = 0%Z /\ o_trace s = []) \/
    (o_cost_vals s = o_costs E (o_x s) /\ o_cnt_viols s = o_viols E (o_x s) /\
     ototal_cost s = vsum (o_costs E (o_x s))).
Proof. exact @optimize_fresh. Qed.
Print Assumptions C10_values_of_x_partial.

(** A second optimize() without initialize() projects x but keeps the stored cost values. *)
Theorem C10_values_of_x_refuted :
  exists st s, ostale = Ok (Some (st, s)) /\ o_x s = [4%Q] /\ o_costs oleft (o_x s) = [1%Q] /\
    o_cost_vals s = [(998001 # 1000000)%Q] /\ ototal_cost s = (998001 # 1000000)%Q.
Proof. eexists _, _. split; [vm_compute; reflexivity|]. repeat split; reflexivity. Qed.
Print Assumptions C10_values_of_x_refuted.

(** ** C11 *)
Theorem C11_merit_monotone :
  forall (W : Type) (P : oparams R) (E : oenv R W) fuel x s0 st s,
    o_trace s0 = [] ->
    optimize P E fuel (oinitialize x s0) = Ok (Some (st, s)) ->
    o_trace s = [] \/
    omerit_run (omerit_of (o_costs E (o_project E x)) (o_viols E (o_project E x))
                  (repeat (oinitial_merit_error_coeff P) (o_ncnt E)))
      (o_trace s) (omerit_of (o_cost_vals s) (o_cnt_viols s) (o_merit s)).
Proof. exact @optimize_merit. Qed.
Print Assumptions C11_merit_monotone.

Theorem C11_sufficient_decrease :
  forall (W : Type) (P : oparams R) (E : oenv R W) fuel x s0 st s,
    (0 < omin_approx_improve P)%R -> o_trace s0 = [] ->
    optimize P E fuel (oinitialize x s0) = Ok (Some (st, s)) ->
    forall old new, In (OAccept old new) (o_trace s) ->
      exists model : R, (omin_approx_improve P <= old - model)%R /\
        (oimprove_ratio_threshold P * (old - model) <= old - new)%R.
Proof. exact @optimize_sufficient. Qed.
Print Assumptions C11_sufficient_decrease.

(** A real run with an accepted step. *)
Example C11_C12_ex : exists s,
  optimize oreal_params oreal_env 3 (oinitialize [3%R] (ofresh 4%R tt)) = Ok (Some (OPT_CONVERGED, s)) /\
  o_trace s = [OAccept (0 + 3 * 3 + 0) (0 + 2 * 2 + 0); OQP true; OConvexify; OEval]%R.
Proof.
  eexists. split.
  - unfold optimize, omerit_loop, osqp_loop. cbn -[Rltb Rleb Rplus Rmult Rminus Rdiv].
    unfold omerit_of, vsum, vdot. cbn -[Rltb Rleb Rplus Rmult Rminus Rdiv].
    repeat (rdec; cbn -[Rltb Rleb Rplus Rmult Rminus Rdiv]).
    reflexivity.
  - cbn. reflexivity.
Qed.

(** ** C12 *)
Theorem C12_terminates :
  forall (W : Type) (P : oparams R) (E : oenv R W),
    (0 <= otrust_shrink_ratio P < 1)%R -> (0 < omin_trust_box_size P)%R ->
    forall s, exists K r, r <> NoFuel /\ forall fuel, (K <= fuel)%nat -> optimize P E fuel s = r.
Proof. exact @optimize_terminates. Qed.
Print Assumptions C12_terminates.

(** The asserts hold for a problem whose functions return vectors of the right sizes. *)
Theorem C12_no_assertion :
  forall (T : Type) (NT : Num T) (W : Type) (P : oparams T) (E : oenv T W) n,
    (forall x, length (o_project E x) = length x) ->
    (forall x, length (o_viols E x) = o_ncnt E) ->
    (forall w v, length (o_mviols E w v) = o_ncnt E) ->
    (forall w v, snd (o_qp E w) = Some v -> (n <= length v)%nat) ->
    (forall x, o_costs E x <> [] \/ o_viols E x <> []) ->
    forall fuel x s0, length x = n -> o_trace s0 = [] -> optimize P E fuel (oinitialize x s0) <> Undef.
Proof. exact @optimize_no_assert. Qed.
Print Assumptions C12_no_assertion.

Theorem C12_convexifications :
  forall (T : Type) (NT : Num T) (W : Type) (P : oparams T) (E : oenv T W) fuel x s0 st s,
    o_trace s0 = [] ->
    optimize P E fuel (oinitialize x s0) = Ok (Some (st, s)) ->
    (Z.of_nat (oconvexifications (o_trace s)) <=
       Z.max 1 (omax_iter P) * (Z.of_nat (openalties (o_trace s)) + 1))%Z.
Proof. exact @optimize_convexifications. Qed.
Print Assumptions C12_convexifications.

Theorem C12_penalty_count :
  forall (W : Type) (P : oparams R) (E : oenv R W) fuel x s0 st s,
    o_trace s0 = [] ->
    optimize P E fuel (oinitialize x s0) = Ok (Some (st, s)) ->
    openalties (o_trace s) = 0%nat \/
    (INR (openalties (o_trace s) - 1) < omax_merit_coeff_increases P)%R.
Proof. exact @optimize_penalties. Qed.
Print Assumptions C12_penalty_count.

(** One trust-region loop tolerates at most max_qp_solver_failures + 1 failed QPs. *)
Theorem C12_failures_per_loop :
  forall (T : Type) (NT : Num T) (W : Type) (P : oparams T) (E : oenv T W) fuel s x,
    otr_loop P E fuel 0 s = Ok x ->
    exists ev, o_trace (xstate x) = ev ++ o_trace s /\
      (Z.of_nat (ofailures ev) <= Z.max 0 (omax_qp_solver_failures P) + 1)%Z.
Proof. exact @otr_failures_0. Qed.
Print Assumptions C12_failures_per_loop.

(** With the default limits a convex solver that always fails gives OPT_FAILED ... *)
Example C12_failed_ex : exists s, ofail 3 = Ok (Some (OPT_FAILED, s)) /\ o_nqp s = 4%Z /\ o_x s = [2%Q].
Proof. eexists. split; [vm_compute; reflexivity|]. repeat split; reflexivity. Qed.
(** ... but with a larger failure limit the box becomes tiny first and OPT_CONVERGED is reported
    although no QP was ever solved. *)
Theorem C12_all_failures_reported_refuted :
  exists s, ofail 6 = Ok (Some (OPT_CONVERGED, s)) /\ o_nqp s = 4%Z /\ ofailures (o_trace s) = 4%nat /\ o_x s = [2%Q].
Proof. eexists. split; [vm_compute; reflexivity|]. repeat split; reflexivity. Qed.
Print Assumptions C12_all_failures_reported_refuted.

(** ** C71 *)
(** optimize() stores the shrunk trust box in its parameters; initialize() does not restore it.  The
    same problem from the same start is solved by a new optimizer but returned unsolved, with
    OPT_CONVERGED, by an optimizer whose previous run ended with a tiny trust region. *)
Theorem C71_reinitialize_refuted :
  (exists s, ofirst = Ok (Some (OPT_CONVERGED, s)) /\ o_x s = [0%Q] /\ o_nqp s = 2%Z) /\
  (exists s, oreused = Ok (Some (OPT_CONVERGED, s)) /\ o_x s = [2%Q] /\ o_nqp s = 0%Z).
Proof. split; eexists; (split; [vm_compute; reflexivity|]); repeat split; reflexivity. Qed.
Print Assumptions C71_reinitialize_refuted.
