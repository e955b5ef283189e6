(** * C74, C75: final statuses are truthful; box size and penalties follow the documented rules *)
From Coq Require Import List ZArith QArith Bool Lia.
From Verif Require Import Num NumFacts SqpModel SqpProofs SqpExamples SqpHistorySpec SqpHistoryProofs.
Import ListNotations.

(** ** C74 *)
Theorem C74_limits_are_real :
  forall (T : Type) (NT : Num T) (W : Type) (P : sqp_params T) (E : env T W) fuel pfuel vars0 w s,
    length vars0 = n_nlp E ->
    solve P E fuel pfuel vars0 w = Ok s ->
    (status s = kTimeLimit -> exists w0 w1 t, clock E w0 = (w1, t) /\ nltb (max_time P) t = true) /\
    (status s = kIterationLimit -> (max_iterations P <= qps (trace s))%Z) /\
    (status s = kPenaltyIterationLimit -> nltb (nofZ (pens (trace s))) (max_merit_coeff_increases P) = false) /\
    overall_it (res s) = qps (trace s) /\
    (* and a limit is only reported when the largest violation is not below the tolerance *)
    (status s <> kConverged -> pens (trace s) = 0%Z /\ status s = kPenaltyIterationLimit \/
       exists m, vmaxc (exact_viols E (p_vars s)) = Some m /\ nltb m (cnt_tolerance P) = false).
Proof.
  intros T NT W P E fuel pfuel vars0 w s Hl Hs.
  pose proof (solve_status P E _ _ _ _ _ Hs) as Hst.
  pose proof (solve_coherent P E _ _ _ _ _ Hl Hs) as (_ & Hv & _).
  apply solve_linv in Hs as ((_ & Ho) & B & C & D).
  split; [intros H; apply B; exact H|]. split; [intros H; apply C; exact H|]. split; [intros H; apply D; exact H|].
  split; [exact Ho|]. intros Hn. rewrite <- Hv.
  destruct Hst as [[Hc _]|[Hc|[Hc|Hc]]]; [congruence|..].
  - destruct (D Hc) as [_ [D0|D1]]; [auto|]. right. apply verify_false; exact D1.
  - right. apply verify_false, (C Hc).
  - right. apply verify_false, (B Hc).
Qed.
Print Assumptions C74_limits_are_real.

(** A clock that is always past the limit: nothing is solved and the limit is reported, unless the
    start point is already feasible. *)
Theorem C74_time_limit_honoured :
  forall (T : Type) (NT : Num T) (W : Type) (P : sqp_params T) (E : env T W) fuel pfuel vars0 w s,
    (forall w, nltb (max_time P) (snd (clock E w)) = true) ->
    nltb (nofZ 0) (max_merit_coeff_increases P) = true ->
    solve P E fuel pfuel vars0 w = Ok s -> trace s = [] /\ (status s = kTimeLimit \/ status s = kConverged).
Proof. exact @late_clock. Qed.
Print Assumptions C74_time_limit_honoured.

Definition late_run := solve (defaults 50 (nofZ 2)) exq 50 10 [0%Q] (mk (repeat (Some [(1 # 2)%Q]) 9) [] [1%Q; 2000%Q]).
Example C74_ex : (exists s, late_run = Ok s /\ status s = kTimeLimit) /\
  (exists s, stop_run = Ok s /\ status s = kIterationLimit /\ qps (trace s) = 5%Z) /\
  (exists s, fail_run = Ok s /\ status s = kPenaltyIterationLimit /\ pens (trace s) = 5%Z).
Proof. repeat split; eexists; (split; [vm_compute; reflexivity|]); repeat split; reflexivity. Qed.

(** ** C75 *)
Theorem C75_box_follows_history :
  forall (T : Type) (NT : Num T) (W : Type) (P : sqp_params T) (E : env T W) fuel pfuel vars0 w s,
    solve P E fuel pfuel vars0 w = Ok s ->
    box_size (res s) = repeat (box_hist P (trace s)) (n_nlp E) /\ p_box s = box_size (res s) /\
    forall newer ok older, trace s = newer ++ EvQP ok :: older ->
      nleb (min_trust_box_size P) (box_hist P older) = true.
Proof.
  intros T NT W P E fuel pfuel vars0 w s Hs. apply solve_linv in Hs as (((A & B & _ & D) & _) & _).
  split; [exact A|]. split; [exact B|]. intros newer ok older. eapply hist_ok_qp; eauto.
Qed.
Print Assumptions C75_box_follows_history.

Theorem C75_coefficients_follow_history :
  forall (T : Type) (NT : Num T) (W : Type) (P : sqp_params T) (E : env T W) fuel pfuel vars0 w s,
    solve P E fuel pfuel vars0 w = Ok s ->
    merit_coeffs (res s) = coeff_hist P (n_cnt E) (trace s) /\
    forall newer v b a older, trace s = newer ++ EvPenalty v b a :: older -> b = coeff_hist P (n_cnt E) older.
Proof.
  intros T NT W P E fuel pfuel vars0 w s Hs. apply solve_linv in Hs as (((_ & _ & C & D) & _) & _).
  split; [exact C|]. intros newer v b a older. eapply hist_ok_pen; eauto.
Qed.
Print Assumptions C75_coefficients_follow_history.

Example C75_ex : exists s, good_run = Ok s /\
  trace s <> [] /\ Forall2 Qeq (box_size (res s)) [8 # 1000] /\ In EvReject (trace s) /\ In (EvQP false) (trace s).
Proof. eexists. split; [vm_compute; reflexivity|]. split; [discriminate|]. split; [repeat constructor|]. split; cbn; intuition. Qed.
