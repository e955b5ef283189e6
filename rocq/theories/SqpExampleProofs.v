(** Facts about the example runs of the SQP solver. *)
From Coq Require Import List ZArith QArith Reals Lra Lia Bool Floats.SpecFloat.
From Verif Require Import Num NumFacts SqpModel SqpSpec SqpProofs SqpRProofs SqpExamples.
Import ListNotations.

Lemma good_run_slack : exists s, good_run = Ok s /\ p_vars s = [1%Q] /\ e_vars (best (res s)) = [1%Q; 7%Q].
Proof. eexists. split; [vm_compute; reflexivity|]. repeat split; reflexivity. Qed.
Lemma reject_run_4 : exists s, reject_run = Ok s /\ length [3%Q] = n_nlp rejecting /\
    max_iterations (defaults (T := Q) 1 (3 # 2)) = 1%Z /\ qp_solves (trace s) = 4%nat.
Proof. eexists. split; [vm_compute; reflexivity|]. repeat split; reflexivity. Qed.
Lemma stop_run_5 : exists s, stop_run = Ok s /\ status s = kIterationLimit /\ qp_solves (trace s) = 5%nat /\
    Forall (fun e => forall ok, e = EvCallback ok -> ok = false) (trace s).
Proof.
  eexists. split; [vm_compute; reflexivity|]. split; [reflexivity|]. split; [reflexivity|].
  cbn. repeat constructor; intros ok [= <-]; reflexivity.
Qed.
Lemma stop_run_split : exists s newer older,
  stop_run = Ok s /\ trace s = newer ++ EvConvexify :: EvCallback false :: older.
Proof.
  eexists. exists [EvCallback false; EvQP true]. eexists. split; [vm_compute; reflexivity|]. reflexivity.
Qed.
Lemma fail_run_status : exists s, fail_run = Ok s /\ (forall w, snd (qp_solve failing w) = None) /\
    status s = kPenaltyIterationLimit /\ qp_solves (trace s) = 13%nat.
Proof.
  eexists. split; [vm_compute; reflexivity|]. repeat split; reflexivity.
Qed.
Lemma tol_run_5 : exists s, tol_run = Ok s /\ status s = kPenaltyIterationLimit /\ penalty_changes (trace s) = 5%nat /\
    merit_coeffs (res s) = [10%Q].
Proof. eexists. split; [vm_compute; reflexivity|]. repeat split; reflexivity. Qed.
Lemma nan_run_accepts : exists s, nan_run = Ok s /\ status s = kConverged /\
    In (EvAccept (f64_ofZ 5) S754_nan) (trace s) /\ e_merit (best (res s)) = S754_nan.
Proof.
  eexists. split; [vm_compute; reflexivity|]. split; [reflexivity|]. split; [|reflexivity].
  cbn. tauto.
Qed.
Lemma no_shrink_loop n f (s : sst Q unit) : box_size (res s) = [1 # 10] -> p_box s = [1 # 10] ->
  e_merit (best (res s)) = 1%Q -> tr_loop no_shrink_params always_rejecting n f s = NoFuel.
Proof.
  revert f s; induction n as [|n IH]; intros f s Hb Hp Hm; cbn [tr_loop]; rewrite Hb; cbn [vmaxc fold_left].
  - reflexivity.
  - change (nleb (min_trust_box_size no_shrink_params) (1 # 10)) with true.
    unfold tr_body, solveQPProblem. cbn -[Z.add]. rewrite Hm. cbn -[Z.add].
    apply IH; cbn; rewrite ?Hp; auto.
Qed.
Lemma convex_loop_S {T W} {NT : Num T} (P : sqp_params T) (E : env T W) fuel k s :
  convex_loop P E fuel (S k) s =
    (let '(w, elapsed) := clock E (world s) in
     let s := set_world s w in
     if nltb (max_time P) elapsed then Ok (set_status s kTimeLimit)
     else if (overall_it (res s) >=? max_iterations P)%Z then Ok (set_status s kIterationLimit)
     else obind (stepSQPSolver P E fuel s) (fun '(s, stop) =>
       if stop then Ok s else convex_loop P E fuel k s)).
Proof. reflexivity. Qed.
Lemma penalty_loop_S {T W} {NT : Num T} (P : sqp_params T) (E : env T W) fuel pfuel i s :
  penalty_loop P E fuel (S pfuel) i s =
    (if nltb (nofZ i) (max_merit_coeff_increases P) then
       let r := res s in
       let s := set_res s (with_its r i 0 (tr_it r) (overall_it r)) in
       obind (convex_loop P E fuel 99 s) (fun s =>
         if verifySQPSolverConvergence P s then Ok (set_status s kConverged)
         else if status_eqb (status s) kIterationLimit || status_eqb (status s) kTimeLimit then Ok s
         else obind (adjustPenalty P E (set_status s kRunning)) (fun s => penalty_loop P E fuel pfuel (i + 1) s))
     else Ok s).
Proof. reflexivity. Qed.
Lemma tr_loop_S {T W} {NT : Num T} (P : sqp_params T) (E : env T W) fuel f s :
  tr_loop P E (S fuel) f s =
    match vmaxc (box_size (res s)) with
    | None => Undef
    | Some m => if nleb (min_trust_box_size P) m then
        match tr_body P E f s with TrReturn s => Ok s | TrContinue f s => tr_loop P E fuel f s end
      else Ok s
    end.
Proof. reflexivity. Qed.

Lemma no_shrink_diverges fuel : solve no_shrink_params always_rejecting fuel 5 [0%Q] tt = NoFuel.
Proof.
  unfold solve. rewrite penalty_loop_S. cbn zeta. rewrite (convex_loop_S _ _ _ 98).
  cbn [clock always_rejecting].
  change (nltb (nofZ 0) (max_merit_coeff_increases no_shrink_params)) with true.
  change (nltb (max_time no_shrink_params) nzero) with false.
  unfold stepSQPSolver, runTrustRegionLoop. rewrite no_shrink_loop by reflexivity. reflexivity.
Qed.

(** ** Runs over the reals *)
Lemma defaults_R :
  improve_ratio_threshold real_params = (1/4)%R /\ min_trust_box_size real_params = (1/10000)%R /\
  min_approx_improve real_params = (1/10000)%R /\ min_approx_improve_frac real_params = (-1000000)%R /\
  max_time real_params = 1000%R /\ cnt_tolerance real_params = (1/10000)%R /\
  trust_expand_ratio real_params = 2%R /\ initial_trust_box_size real_params = (1/10)%R /\
  trust_shrink_ratio real_params = (1/10)%R /\ max_merit_coeff_increases real_params = 5%R /\
  merit_coeff_increase_ratio real_params = 10%R /\ initial_merit_error_coeff real_params = 10%R.
Proof.
  unfold real_params, defaults, ndec, R_Num, nofZ, Rdec;
    cbn [improve_ratio_threshold min_trust_box_size min_approx_improve min_approx_improve_frac max_time
         cnt_tolerance trust_expand_ratio initial_trust_box_size trust_shrink_ratio max_merit_coeff_increases
         merit_coeff_increase_ratio initial_merit_error_coeff].
  change (Pos.to_nat 2) with 2%nat. change (Pos.to_nat 4) with 4%nat. change (Pos.to_nat 1) with 1%nat.
  repeat split; lra.
Qed.

Lemma vmaxc_one (x : R) : vmaxc [x] = Some x. Proof. reflexivity. Qed.

Lemma real_body (s : sst R unit) f : e_merit (best (res s)) = 9%R -> merit_coeffs (res s) = [] ->
  exists s', tr_body real_params real_env f s = TrReturn s' /\
    trace s' = EvAccept 9%R 4%R :: EvCallback true :: EvQP true :: trace s /\
    overall_it (res s') = (overall_it (res s) + 1)%Z /\ e_viols (best (res s')) = [] /\
    box_size (res s') = map (Rmult 2) (p_box s) /\ status s' = kRunning.
Proof.
  destruct defaults_R as (H1 & H2 & H3 & H4 & H5 & H6 & H7 & H8 & H9 & H10 & _).
  intros Hm Hc. unfold tr_body, solveQPProblem.
  cbn [qp_solve real_env real_env_gen world set_res set_world emit set_variables res with_its best new
       approx_improve exact_improve improve_ratio callbacks forallb set_status convex_viols convex_costs
       exact_costs exact_viols p_vars n_nlp firstn merit_coeffs e_merit].
  rewrite Hm, Hc, H1, H3, H4.
  assert (Hv : merit_of [(2 * 2)%R] [] [] = 4%R).
  { unfold merit_of, vdot, vsum. cbn. lra. }
  rewrite Hv.
  cbn [nltb nsub nabs ndiv nzero ndec R_Num].
  replace (Rltb (9 - 4) (1 / 10000)) with false by (symmetry; apply Rltb_false; lra).
  assert (Hd : nmax (Rabs 9) (Rdec 1 (-12)) = 9%R).
  { unfold Rdec. change (Pos.to_nat 12) with 12%nat. rewrite nmax_R, Rabs_pos_eq, Rmax_left by lra. reflexivity. }
  rewrite Hd.
  replace (Rltb ((9 - 4) / 9) (-1000000)) with false by (symmetry; apply Rltb_false; lra).
  replace (Rltb (Rabs (9 - 4)) (Rdec 1 (-12))) with false.
  2:{ symmetry. apply Rltb_false. unfold Rdec. change (Pos.to_nat 12) with 12%nat. rewrite Rabs_pos_eq; lra. }
  replace (Rltb (9 - 4) 0) with false by (symmetry; apply Rltb_false; lra).
  replace (Rltb ((9 - 4) / (9 - 4)) (1 / 4)) with false.
  2:{ symmetry. apply Rltb_false. unfold Rdiv. rewrite (Rinv_r (9 - 4)) by lra. lra. }
  cbn [orb]. eexists. split; [reflexivity|].
  cbn [accept scale_box trace emit set_res set_world set_pbox set_variables set_status res with_best with_box best
       new e_merit e_viols status overall_it box_size p_box set_res].
  rewrite Hm. repeat split.
Qed.

Lemma init_merit (P : sqp_params R) (E : env R unit) v w :
  e_merit (best (res (init P E v w))) =
    merit_of (exact_costs E v) (exact_viols E v) (repeat (initial_merit_error_coeff P) (n_cnt E)).
Proof. reflexivity. Qed.

Lemma real_run : exists s,
  solve real_params real_env 5 5 [3%R] tt = Ok s /\
  trace s = [EvAccept 9%R 4%R; EvCallback true; EvQP true; EvConvexify] /\
  length [3%R] = n_nlp real_env /\
  (0 <= improve_ratio_threshold real_params)%R /\ (/ 10 ^ 12 <= min_approx_improve real_params)%R.
Proof.
  destruct defaults_R as (H1 & H2 & H3 & H4 & H5 & H6 & H7 & H8 & H9 & H10 & _).
  assert (Hmer : e_merit (best (res (init real_params real_env [3%R] tt))) = 9%R).
  { rewrite init_merit. unfold merit_of, vdot, vsum. cbn. lra. }
  unfold solve. rewrite penalty_loop_S. cbn zeta. rewrite (convex_loop_S _ _ _ 98).
  set (s0 := init real_params real_env [3%R] tt) in *.
  rewrite H10. cbn [nltb nofZ R_Num clock real_env real_env_gen].
  replace (Rltb 0 5) with true by (symmetry; apply Rltb_true; lra).
  rewrite H5. cbn zeta.
  replace (Rltb 1000 0) with false by (symmetry; apply Rltb_false; lra).
  change (max_iterations real_params) with 1%Z.
  match goal with |- context [(overall_it (res ?x) >=? 1)%Z] => set (s1 := x) end.
  change (overall_it (res s1) >=? 1)%Z with false. cbn match.
  unfold stepSQPSolver. match goal with |- context [runTrustRegionLoop _ _ _ ?x] => set (s2 := x) end.
  unfold runTrustRegionLoop. match goal with |- context [tr_loop _ _ _ _ ?x] => set (s3 := x) end.
  rewrite (tr_loop_S _ _ 4).
  assert (Hb3 : box_size (res s3) = [(1/10)%R]).
  { change (box_size (res s3)) with [initial_trust_box_size real_params]. rewrite H8. reflexivity. }
  rewrite Hb3, vmaxc_one, H2. cbn [nleb R_Num].
  replace (Rleb (1 / 10000) (1 / 10)) with true by (symmetry; apply Rleb_true; lra).
  destruct (real_body s3 0) as (s4 & Hbody & Htr & Hit & Hvi & Hbx & Hst); [exact Hmer|reflexivity|].
  rewrite Hbody. cbn [obind]. rewrite Hst. cbn [status_eqb].
  assert (Hb4 : box_size (res s4) = [(2/10)%R]).
  { rewrite Hbx. change (p_box s3) with [initial_trust_box_size real_params]. rewrite H8. cbn. f_equal. lra. }
  rewrite Hb4, vmaxc_one. cbn [nltb R_Num].
  replace (Rltb (2 / 10) (1 / 10000)) with false by (symmetry; apply Rltb_false; lra).
  cbn [obind].
  rewrite (convex_loop_S _ _ _ 97). cbn [clock real_env real_env_gen]. rewrite H5. cbn [nltb R_Num nzero].
  replace (Rltb 1000 0) with false by (symmetry; apply Rltb_false; lra). cbn zeta.
  cbn [res set_world]. rewrite Hit. change (max_iterations real_params) with 1%Z.
  change (overall_it (res s3) + 1 >=? 1)%Z with true. cbn match. cbn [obind].
  unfold verifySQPSolverConvergence. cbn [res set_status set_world]. rewrite Hvi. cbn [vmaxc obind status status_eqb set_status].
  eexists. split; [reflexivity|]. split; [|split; [reflexivity|split; [lra|]]].
  - cbn [trace set_variables set_status set_world]. rewrite Htr. reflexivity.
  - rewrite H3. lra.
Qed.

Lemma real_params_ok :
  (0 <= trust_shrink_ratio real_params)%R /\ (trust_shrink_ratio real_params < 1)%R /\
  (0 < min_trust_box_size real_params)%R /\ (0 < n_nlp real_env)%nat /\
  (forall x, length (exact_viols real_env x) = n_cnt real_env) /\
  (initial_trust_box_size real_params * trust_shrink_ratio real_params ^ 4 < min_trust_box_size real_params)%R.
Proof.
  destruct defaults_R as (H1 & H2 & H3 & H4 & H5 & H6 & H7 & H8 & H9 & H10 & _).
  rewrite H2, H8, H9. repeat split; try lra. cbn; lia.
Qed.

Lemma pen_body (s : sst R unit) f : e_merit (best (res s)) = 19%R -> merit_coeffs (res s) = [10%R] ->
  exists s', tr_body real_params pen_env f s = TrReturn s' /\
    trace s' = EvCallback true :: EvQP true :: trace s /\ best (res s') = best (res s) /\
    overall_it (res s') = (overall_it (res s) + 1)%Z /\ merit_coeffs (res s') = [10%R] /\
    box_size (res s') = box_size (res s) /\ status s' = kConverged.
Proof.
  destruct defaults_R as (H1 & H2 & H3 & H4 & H5 & H6 & H7 & H8 & H9 & H10 & _).
  intros Hm Hc. unfold tr_body, solveQPProblem.
  cbn [qp_solve pen_env real_env_gen world set_res set_world emit set_variables res with_its best new
       approx_improve exact_improve improve_ratio callbacks forallb set_status convex_viols convex_costs
       exact_costs exact_viols p_vars n_nlp firstn merit_coeffs e_merit].
  rewrite Hm, Hc, H3.
  assert (Hv : merit_of [(3 * 3)%R] [1%R] [10%R] = 19%R).
  { unfold merit_of, vdot, vsum. cbn. lra. }
  rewrite Hv.
  cbn [nltb nsub R_Num].
  replace (Rltb (19 - 19) (1 / 10000)) with true by (symmetry; apply Rltb_true; lra).
  eexists. split; [reflexivity|].
  cbn [trace emit set_res set_world set_variables set_status res best merit_coeffs status overall_it box_size with_its].
  repeat split.
Qed.

Lemma pen_run : exists s,
  solve real_params pen_env 5 5 [3%R] tt = Ok s /\ In (EvPenalty [1%R] [10%R] [100%R]) (trace s).
Proof.
  destruct defaults_R as (H1 & H2 & H3 & H4 & H5 & H6 & H7 & H8 & H9 & H10 & H11 & H12).
  assert (Hmer : e_merit (best (res (init real_params pen_env [3%R] tt))) = 19%R).
  { rewrite init_merit, H12. unfold merit_of, vdot, vsum. cbn. lra. }
  assert (Hmc : merit_coeffs (res (init real_params pen_env [3%R] tt)) = [10%R]).
  { change (merit_coeffs (res (init real_params pen_env [3%R] tt))) with [initial_merit_error_coeff real_params].
    rewrite H12. reflexivity. }
  unfold solve. rewrite penalty_loop_S. cbn zeta. rewrite (convex_loop_S _ _ _ 98).
  set (s0 := init real_params pen_env [3%R] tt) in *.
  rewrite H10. cbn [nltb nofZ R_Num clock pen_env real_env_gen].
  replace (Rltb 0 5) with true by (symmetry; apply Rltb_true; lra).
  rewrite H5. cbn zeta.
  replace (Rltb 1000 0) with false by (symmetry; apply Rltb_false; lra).
  change (max_iterations real_params) with 1%Z.
  match goal with |- context [(overall_it (res ?x) >=? 1)%Z] => set (s1 := x) end.
  change (overall_it (res s1) >=? 1)%Z with false. cbn match.
  unfold stepSQPSolver. match goal with |- context [runTrustRegionLoop _ _ _ ?x] => set (s2 := x) end.
  unfold runTrustRegionLoop. match goal with |- context [tr_loop _ _ _ _ ?x] => set (s3 := x) end.
  rewrite (tr_loop_S _ _ 4).
  assert (Hb3 : box_size (res s3) = [(1/10)%R]).
  { change (box_size (res s3)) with [initial_trust_box_size real_params]. rewrite H8. reflexivity. }
  rewrite Hb3, vmaxc_one, H2. cbn [nleb R_Num].
  replace (Rleb (1 / 10000) (1 / 10)) with true by (symmetry; apply Rleb_true; lra).
  destruct (pen_body s3 0) as (s4 & Hbody & Htr & Hbe & Hit & Hmc4 & Hbx & Hst); [exact Hmer|exact Hmc|].
  rewrite Hbody. cbn [obind]. rewrite Hst. cbn [status_eqb obind].
  unfold verifySQPSolverConvergence. rewrite Hbe.
  change (e_viols (best (res s3))) with [1%R]. rewrite vmaxc_one, H6. cbn [nltb R_Num].
  replace (Rltb 1 (1 / 10000)) with false by (symmetry; apply Rltb_false; lra).
  rewrite Hst. cbn [status_eqb orb].
  destruct (adjustPenalty real_params pen_env (set_status s4 kRunning)) as [s5| |] eqn:Ea.
  - pose proof (adjust_event _ _ _ _ Ea) as (a & Htr5 & Hm5 & Hi & _).
    destruct (Hi eq_refl) as [_ Ha].
    cbn [res set_status] in Htr5, Ha. rewrite Hbe, Hmc4 in Htr5, Ha.
    change (e_viols (best (res s3))) with [1%R] in Htr5, Ha.
    assert (Ha' : a = [100%R]).
    { rewrite Ha. cbn [inflate]. rewrite H6, H11. cbn [nltb nmul R_Num].
      replace (Rltb (1 / 10000) 1) with true by (symmetry; apply Rltb_true; lra). f_equal. lra. }
    apply adjust_trace in Ea as (v & b & a2 & _ & Hit5).
    cbn [obind]. rewrite (penalty_loop_S _ _ _ 3), H10. change (0 + 1)%Z with 1%Z. cbn [nltb nofZ R_Num].
    replace (Rltb 1 5) with true by (symmetry; apply Rltb_true; lra). cbn zeta.
    rewrite (convex_loop_S _ _ _ 98). cbn [clock pen_env real_env_gen]. rewrite H5. cbn [nltb R_Num nzero].
    replace (Rltb 1000 0) with false by (symmetry; apply Rltb_false; lra). cbn zeta.
    cbn [res set_world set_res with_its overall_it]. rewrite Hit5. cbn [res set_status]. rewrite Hit.
    change (max_iterations real_params) with 1%Z.
    change (overall_it (res s3) + 1 >=? 1)%Z with true. cbn match. cbn [obind].
    match goal with |- context [if ?c then Ok _ else _] => destruct c end;
      cbn [obind status status_eqb set_status orb];
      eexists; (split; [reflexivity|]);
      cbn [trace set_variables set_status set_world set_res]; rewrite Htr5, Ha'; left; reflexivity.
  - exfalso. revert Ea. unfold adjustPenalty. cbn [res set_status emit set_res with_merit box_size]. rewrite Hbe, Hmc4, Hbx, Hb3.
    change (e_viols (best (res s3))) with [1%R]. cbn. discriminate.
  - exfalso. revert Ea. unfold adjustPenalty. cbn [res set_status emit set_res with_merit box_size]. rewrite Hbe, Hmc4, Hbx, Hb3.
    change (e_viols (best (res s3))) with [1%R]. cbn. discriminate.
Qed.
