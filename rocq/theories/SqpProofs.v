(** Proofs about the SQP solver model. *)
From Coq Require Import List ZArith Bool Lia Reals Lra.
From Verif Require Import Num NumFacts SqpModel.
Import ListNotations.

Section Generic.
  Context {T : Type} {NT : Num T} {W : Type}.
  Variable P : sqp_params T.
  Variable E : env T W.
  Notation sst := (sst T W).

  Definition is_qp (e : event T) : bool := match e with EvQP _ => true | _ => false end.
  Definition count_qp (tr : list (event T)) : nat := length (filter is_qp tr).

  (** ** Generic invariant rule for the nested loops *)
  Section Inv.
    Variable I : sst -> Prop.
    Hypothesis I_body : forall f s m, I s -> vmaxc (box_size (res s)) = Some m ->
      nleb (min_trust_box_size P) m = true ->
      match tr_body P E f s with TrReturn s' => I s' | TrContinue _ s' => I s' end.

    Lemma tr_loop_inv fuel f s s' : I s -> tr_loop P E fuel f s = Ok s' -> I s'.
    Proof.
      revert f s; induction fuel as [|fuel IH]; intros f s HI; cbn [tr_loop];
        destruct (vmaxc (box_size (res s))) as [m|] eqn:Em; try discriminate;
        destruct (nleb (min_trust_box_size P) m) eqn:El.
      - discriminate.
      - intros [= <-]; exact HI.
      - pose proof (I_body f s m HI Em El) as Hb.
        destruct (tr_body P E f s) as [f2 s2|s2].
        + apply IH; exact Hb.
        + intros [= <-]; exact Hb.
      - intros [= <-]; exact HI.
    Qed.
  End Inv.

  Section Inv2.
    Variable I : sst -> Prop.
    (* loop bookkeeping *)
    Hypothesis I_its : forall s p c t, I s ->
      I (set_res s (with_its (res s) p c t (overall_it (res s)))).
    Hypothesis I_status : forall s st, I s -> I (set_status s st).
    Hypothesis I_world : forall s w, I s -> I (set_world s w).
    Hypothesis I_convexify : forall s, I s -> (overall_it (res s) < max_iterations P)%Z ->
      I (emit s EvConvexify).
    Hypothesis I_body : forall f s m, I s -> vmaxc (box_size (res s)) = Some m ->
      nleb (min_trust_box_size P) m = true ->
      match tr_body P E f s with TrReturn s' => I s' | TrContinue _ s' => I s' end.
    Hypothesis I_adjust : forall s s', I s -> verifySQPSolverConvergence P s = false ->
      adjustPenalty P E s = Ok s' -> I s'.

    Lemma run_inv fuel s s' : I s -> runTrustRegionLoop P E fuel s = Ok s' -> I s'.
    Proof. intros HI. unfold runTrustRegionLoop. apply tr_loop_inv; auto. Qed.

    Lemma step_inv fuel s s' b : I s -> (overall_it (res s) < max_iterations P)%Z ->
      stepSQPSolver P E fuel s = Ok (s', b) -> I s'.
    Proof.
      intros HI Hit. unfold stepSQPSolver.
      set (s1 := emit _ _).
      assert (H1 : I s1).
      { subst s1. apply I_convexify; [apply I_world; apply I_its; exact HI|exact Hit]. }
      destruct (runTrustRegionLoop P E fuel s1) as [s2| |] eqn:Er; cbn [obind]; try discriminate.
      apply run_inv in Er; [|exact H1].
      destruct (status_eqb (status s2) kConverged).
      - intros [= <- _]; exact Er.
      - destruct (vmaxc (box_size (res s2))) as [m|]; try discriminate.
        destruct (nltb m (min_trust_box_size P)).
        + intros [= <- _]; auto.
        + intros [= <- _]; auto.
    Qed.

    Lemma convex_inv fuel k s s' : I s -> convex_loop P E fuel k s = Ok s' -> I s'.
    Proof.
      revert s; induction k as [|k IH]; intros s HI; cbn [convex_loop].
      - intros [= <-]; exact HI.
      - destruct (clock E (world s)) as [w el].
        destruct (nltb (max_time P) el); [intros [= <-]; auto|].
        destruct (overall_it (res (set_world s w)) >=? max_iterations P)%Z eqn:Hit; [intros [= <-]; auto|].
        rewrite Z.geb_leb in Hit. apply Z.leb_gt in Hit.
        destruct (stepSQPSolver P E fuel (set_world s w)) as [[s2 b]| |] eqn:Es; cbn [obind]; try discriminate.
        apply step_inv in Es; auto.
        destruct b; [intros [= <-]; auto|apply IH; auto].
    Qed.

    Lemma penalty_inv fuel pfuel i s s' : I s -> penalty_loop P E fuel pfuel i s = Ok s' -> I s'.
    Proof.
      revert i s; induction pfuel as [|pfuel IH]; intros i s HI; cbn [penalty_loop];
        destruct (nltb (nofZ i) (max_merit_coeff_increases P)); try discriminate;
        try (intros [= <-]; exact HI).
      destruct (convex_loop P E fuel 99 _) as [s2| |] eqn:Ec; cbn [obind]; try discriminate.
      apply convex_inv in Ec; auto.
      destruct (verifySQPSolverConvergence P s2) eqn:Ev; [intros [= <-]; auto|].
      assert (Ev0 : verifySQPSolverConvergence P (set_status s2 kRunning) = false) by exact Ev.
      destruct (status_eqb (status s2) kIterationLimit || status_eqb (status s2) kTimeLimit).
      - intros [= <-]; auto.
      - destruct (adjustPenalty P E (set_status s2 kRunning)) as [s3| |] eqn:Ea; cbn [obind]; try discriminate.
        apply IH. eapply I_adjust; [|exact Ev0|exact Ea]; auto.
    Qed.
  End Inv2.

  (** ** Coherence of the best iterate (C02) *)
  Definition evals_ok (coeffs : list T) (e : evals T) : Prop :=
    e_viols e = exact_viols E (firstn (n_nlp E) (e_vars e)) /\
    e_costs e = exact_costs E (firstn (n_nlp E) (e_vars e)) /\
    e_merit e = merit_of (e_costs e) (e_viols e) coeffs.

  Definition coherent (s : sst) : Prop :=
    p_vars s = firstn (n_nlp E) (e_vars (best (res s))) /\
    evals_ok (merit_coeffs (res s)) (best (res s)) /\
    p_merit s = merit_coeffs (res s) /\
    p_box s = box_size (res s).

  Lemma solveQP_spec s s' st : coherent s -> solveQPProblem E s = (s', st) ->
    coherent s' /\ best (res s') = best (res s) /\ merit_coeffs (res s') = merit_coeffs (res s) /\
    box_size (res s') = box_size (res s) /\
    (st = kQPSolveFailed /\ res s' = res s /\ (trace s' = EvQP false :: trace s) \/
     (exists ok : bool, st = (if ok then kRunning else kStoppedByCallback) /\
      trace s' = EvCallback ok :: EvQP true :: trace s /\
      evals_ok (merit_coeffs (res s)) (new (res s')) /\
      exact_improve (res s') = nsub (e_merit (best (res s))) (e_merit (new (res s'))) /\
      approx_improve (res s') = nsub (e_merit (best (res s))) (e_amerit (new (res s'))) /\
      improve_ratio (res s') =
        (if nltb (nabs (approx_improve (res s'))) (ndec 1 (-12)) then nzero
         else ndiv (exact_improve (res s')) (approx_improve (res s'))))).
  Proof.
    intros (Hv & Hb & Hm & Hbox). unfold solveQPProblem.
    destruct (qp_solve E (world s)) as [w [x|]].
    - cbn. destruct (callbacks E w _) as [w' ans].
      intros [= <- <-]. cbn.
      repeat split; cbn; auto; try apply Hb.
      right. exists (forallb (fun b => b) ans). repeat split; auto.
    - cbn. intros [= <- <-]. cbn. repeat split; cbn; auto; try apply Hb.
  Qed.

  Lemma coherent_set_status s st : coherent s -> coherent (set_status s st).
  Proof. intros H; exact H. Qed.
  Lemma coherent_set_world s w : coherent s -> coherent (set_world s w).
  Proof. intros H; exact H. Qed.
  Lemma coherent_emit s e : coherent s -> coherent (emit s e).
  Proof. intros H; exact H. Qed.
  Lemma coherent_its s p c t o : coherent s -> coherent (set_res s (with_its (res s) p c t o)).
  Proof. intros H; exact H. Qed.
  Lemma coherent_scale s k : coherent s -> coherent (scale_box E s k).
  Proof. intros (Hv & Hb & Hm & Hbox). unfold scale_box. repeat split; cbn; auto; apply Hb. Qed.
  Lemma coherent_min s : coherent s -> coherent (min_box P E s).
  Proof. intros (Hv & Hb & Hm & Hbox). unfold min_box. repeat split; cbn; auto; apply Hb. Qed.
  Lemma coherent_accept s : coherent s -> evals_ok (merit_coeffs (res s)) (new (res s)) ->
    coherent (accept P E s).
  Proof.
    intros (Hv & Hb & Hm & Hbox) (Hn1 & Hn2 & Hn3). unfold accept. apply coherent_scale.
    repeat split; cbn; auto.
  Qed.

  Lemma coherent_body f s : coherent s ->
    match tr_body P E f s with TrReturn s' => coherent s' | TrContinue _ s' => coherent s' end.
  Proof.
    intros Hc. unfold tr_body.
    set (s0 := set_res s _).
    assert (H0 : coherent s0) by (apply coherent_its; exact Hc).
    destruct (solveQPProblem E s0) as [s1 st] eqn:Eq.
    apply solveQP_spec in Eq; auto.
    destruct Eq as (H1 & Hbest & Hmer & Hbx & [(-> & Hr & _)|(ok & -> & _ & Hn & _)]).
    - destruct (f + 1 <? max_qp_solver_failures P)%Z; [apply coherent_scale; exact H1|].
      destruct (f + 1 =? max_qp_solver_failures P)%Z; [apply coherent_min; exact H1|exact H1].
    - destruct ok.
      + cbn [res set_status]. destruct (nltb _ (min_approx_improve P)); [exact H1|].
        destruct (nltb _ (min_approx_improve_frac P)); [exact H1|].
        destruct (nltb _ nzero || _).
        * apply coherent_scale; exact H1.
        * apply coherent_accept; [exact H1|]. cbn. rewrite Hmer. exact Hn.
      + exact H1.
  Qed.

  Lemma coherent_adjust s s' : coherent s -> adjustPenalty P E s = Ok s' -> coherent s'.
  Proof.
    intros (Hv & (Hb1 & Hb2 & Hb3) & Hm & Hbox). unfold adjustPenalty.
    destruct (_ && _); [discriminate|].
    cbn. destruct (box_size (res s)) as [|b0 bs] eqn:Eb; [discriminate|].
    intros [= <-]. repeat split; cbn; auto.
  Qed.

  Lemma coherent_init vars0 w : length vars0 = n_nlp E -> coherent (init P E vars0 w).
  Proof.
    intros Hl. unfold init. repeat split; cbn; auto;
      rewrite ?firstn_all2 by (rewrite Hl; auto); auto.
  Qed.

  Lemma coherent_penalty fuel pfuel i s s' :
    coherent s -> penalty_loop P E fuel pfuel i s = Ok s' -> coherent s'.
  Proof.
    apply penalty_inv; auto using coherent_its, coherent_set_status, coherent_set_world, coherent_emit.
    - intros; apply coherent_body; auto.
    - intros s0 s1 Hc _ Ha; eapply coherent_adjust; eauto.
  Qed.

  (** Inversion of [solve]. *)
  Lemma solve_inv_eq fuel pfuel vars0 w s : solve P E fuel pfuel vars0 w = Ok s ->
    exists s1, penalty_loop P E fuel pfuel 0 (init P E vars0 w) = Ok s1 /\
      s = set_variables E (if status_eqb (status s1) kRunning then set_status s1 kPenaltyIterationLimit else s1)
                        (e_vars (best (res s1))).
  Proof.
    unfold solve. destruct (penalty_loop P E fuel pfuel 0 (init P E vars0 w)) as [s1| |] eqn:Ep; cbn; try discriminate.
    intros [= <-]. exists s1. split; auto. destruct (status_eqb (status s1) kRunning); reflexivity.
  Qed.

  Lemma solve_coherent fuel pfuel vars0 w s : length vars0 = n_nlp E ->
    solve P E fuel pfuel vars0 w = Ok s ->
    p_vars s = firstn (n_nlp E) (e_vars (best (res s))) /\
    e_viols (best (res s)) = exact_viols E (p_vars s) /\
    e_costs (best (res s)) = exact_costs E (p_vars s) /\
    e_merit (best (res s)) = merit_of (exact_costs E (p_vars s)) (exact_viols E (p_vars s)) (merit_coeffs (res s)).
  Proof.
    intros Hl Hs. apply solve_inv_eq in Hs as (s1 & Hp & ->).
    apply coherent_penalty in Hp; [|apply coherent_init; auto].
    destruct Hp as (Hv & (Hb1 & Hb2 & Hb3) & _).
    assert (Hr : res (if status_eqb (status s1) kRunning then set_status s1 kPenaltyIterationLimit else s1) = res s1)
      by (destruct (status_eqb _ _); reflexivity).
    cbn. rewrite Hr. repeat split; auto. rewrite Hb3, <- Hb1, <- Hb2. reflexivity.
  Qed.

  (** ** Final status (C01, C06, C07) *)
  Lemma status_eqb_true a b : status_eqb a b = true <-> a = b.
  Proof. destruct a, b; split; intros H; try easy; try discriminate. Qed.

  Lemma adjust_status s s' : adjustPenalty P E s = Ok s' -> status s' = status s.
  Proof.
    unfold adjustPenalty. destruct (_ && _); [discriminate|]. cbn.
    destruct (box_size (res s)); [discriminate|]. intros [= <-]. reflexivity.
  Qed.

  Lemma penalty_status fuel pfuel i s s' : status s = kRunning ->
    penalty_loop P E fuel pfuel i s = Ok s' ->
    (status s' = kConverged /\ verifySQPSolverConvergence P s' = true) \/
    ((status s' = kRunning \/ status s' = kIterationLimit \/ status s' = kTimeLimit)).
  Proof.
    revert i s; induction pfuel as [|pfuel IH]; intros i s Hst; cbn [penalty_loop];
      destruct (nltb (nofZ i) (max_merit_coeff_increases P)); try discriminate;
      try (intros [= <-]; auto).
    destruct (convex_loop P E fuel 99 _) as [s2| |] eqn:Ec; cbn [obind]; try discriminate.
    destruct (verifySQPSolverConvergence P s2) eqn:Ev.
    - intros [= <-]. left. split; [reflexivity|exact Ev].
    - destruct (status_eqb (status s2) kIterationLimit || status_eqb (status s2) kTimeLimit) eqn:Eo.
      + intros [= <-]. right. apply orb_prop in Eo as [Eo|Eo]; apply status_eqb_true in Eo; auto.
      + destruct (adjustPenalty P E (set_status s2 kRunning)) as [s3| |] eqn:Ea; cbn [obind]; try discriminate.
        apply IH. rewrite (adjust_status _ _ Ea). reflexivity.
  Qed.

  Lemma solve_status fuel pfuel vars0 w s : solve P E fuel pfuel vars0 w = Ok s ->
    (status s = kConverged /\ verifySQPSolverConvergence P s = true) \/
    status s = kPenaltyIterationLimit \/ status s = kIterationLimit \/ status s = kTimeLimit.
  Proof.
    intros Hs. apply solve_inv_eq in Hs as (s1 & Hp & ->).
    apply penalty_status in Hp; [|reflexivity].
    destruct Hp as [[Hc Hv]|[Hr|[Hr|Hr]]]; rewrite ?Hc, ?Hr; cbn; auto.
  Qed.

  Lemma solve_converged_feasible `{OrdLaws T (H := NT)} fuel pfuel vars0 w s :
    length vars0 = n_nlp E ->
    solve P E fuel pfuel vars0 w = Ok s -> status s = kConverged ->
    Forall (fun v => nltb v (cnt_tolerance P) = true) (exact_viols E (p_vars s)).
  Proof.
    intros Hl Hs Hc.
    destruct (solve_coherent _ _ _ _ _ Hl Hs) as (_ & Hvi & _).
    apply solve_status in Hs as [[_ Hv]|[Hr|[Hr|Hr]]]; try congruence.
    unfold verifySQPSolverConvergence in Hv. rewrite Hvi in Hv.
    destruct (vmaxc (exact_viols E (p_vars s))) as [m|] eqn:Em.
    - eapply vmaxc_bound; eauto.
    - destruct (exact_viols E (p_vars s)); [constructor|discriminate].
  Qed.

  (** ** Counting QP solves (C05) *)
  Definition counted (s : sst) : Prop :=
    overall_it (res s) = Z.of_nat (count_qp (trace s)) /\
    forall newer older, trace s = newer ++ EvConvexify :: older ->
      (Z.of_nat (count_qp older) < max_iterations P)%Z.

  Lemma solveQP_res_it s s' st : solveQPProblem E s = (s', st) ->
    overall_it (res s') = overall_it (res s) /\
    exists new_ev, trace s' = new_ev ++ trace s /\ count_qp new_ev = 1%nat /\
       ~ In EvConvexify new_ev /\ (forall v b a, ~ In (EvPenalty v b a) new_ev) /\
       (forall a b, ~ In (EvAccept a b) new_ev).
  Proof.
    unfold solveQPProblem. destruct (qp_solve E (world s)) as [w [x|]].
    - cbn. destruct (callbacks E w _) as [w' ans]. intros [= <- <-]. cbn. split; auto.
      exists [EvCallback (forallb (fun b => b) ans); EvQP true]. cbn. repeat split; auto; intuition discriminate.
    - cbn. intros [= <- <-]. cbn. split; auto. exists [EvQP false]. cbn.
      repeat split; auto; intuition discriminate.
  Qed.

  (** Every iteration of the trust-region loop solves exactly one QP. *)
  Lemma body_events f s s' :
    (tr_body P E f s = TrReturn s' \/ exists f', tr_body P E f s = TrContinue f' s') ->
    overall_it (res s') = (overall_it (res s) + 1)%Z /\
    exists new_ev, trace s' = new_ev ++ trace s /\ count_qp new_ev = 1%nat /\ ~ In EvConvexify new_ev /\
      (forall v b a, ~ In (EvPenalty v b a) new_ev).
  Proof.
    unfold tr_body. set (s0 := set_res s _).
    destruct (solveQPProblem E s0) as [s1 st] eqn:Eq.
    apply solveQP_res_it in Eq as (Hit & ev & Htr & Hc & Hnc & Hnp & _).
    change (overall_it (res s0)) with (overall_it (res s) + 1)%Z in Hit.
    change (trace s0) with (trace s) in Htr.
    intros Hex.
    assert (Hcase : (overall_it (res s') = overall_it (res s1)) /\
      (trace s' = trace s1 \/ trace s' = EvReject :: trace s1 \/ exists a b, trace s' = EvAccept a b :: trace s1)).
    { cbn [res set_status] in Hex.
      destruct st;
      repeat match type of Hex with
      | context [if ?b then _ else _] => destruct b
      end;
      destruct Hex as [Hex|[f' Hex]]; try discriminate Hex;
      injection Hex as <-; subst; cbn; split; auto; right; right; eauto. }
    destruct Hcase as [Hi Ht]. split; [congruence|].
    destruct Ht as [Ht|[Ht|(a & b & Ht)]].
    - exists ev. rewrite Ht. auto.
    - exists (EvReject :: ev). rewrite Ht, Htr. repeat split; auto.
      + intros [H|H]; [discriminate|auto].
      + intros v b a [H|H]; [discriminate|eapply Hnp; eauto].
    - exists (EvAccept a b :: ev). rewrite Ht, Htr. repeat split; auto.
      + intros [H|H]; [discriminate|auto].
      + intros v b' a' [H|H]; [discriminate|eapply Hnp; eauto].
  Qed.

  Lemma count_qp_app a b : count_qp (a ++ b) = (count_qp a + count_qp b)%nat.
  Proof. unfold count_qp. rewrite filter_app, app_length. reflexivity. Qed.

  Lemma split_notin {A} (x : A) l1 l2 newer older : ~ In x l1 ->
    l1 ++ l2 = newer ++ x :: older -> exists n2, l2 = n2 ++ x :: older /\ newer = l1 ++ n2.
  Proof.
    revert newer; induction l1 as [|y l1 IH]; intros newer Hn Heq; cbn in *.
    - exists newer; auto.
    - destruct newer as [|z newer]; cbn in Heq; injection Heq as -> Heq.
      + exfalso; apply Hn; auto.
      + apply IH in Heq as (n2 & -> & ->); [exists n2; auto|intuition].
  Qed.

  Lemma counted_body f s : counted s ->
    match tr_body P E f s with TrReturn s' => counted s' | TrContinue _ s' => counted s' end.
  Proof.
    intros [Hc Hp].
    assert (Hall : forall s', (tr_body P E f s = TrReturn s' \/ exists f', tr_body P E f s = TrContinue f' s') -> counted s').
    { intros s' Hex. apply body_events in Hex as (Hit & ev & Htr & Hq & Hnc & _).
      split.
      - rewrite Hit, Htr, count_qp_app, Hq, Hc. lia.
      - intros newer older Heq. rewrite Htr in Heq.
        apply split_notin in Heq as (n2 & Heq & _); auto. eapply Hp; eauto. }
    destruct (tr_body P E f s) as [f' s'|s'] eqn:Eb; apply Hall; eauto.
  Qed.

  Lemma adjust_trace s s' : adjustPenalty P E s = Ok s' ->
    exists v b a, trace s' = EvPenalty v b a :: trace s /\ overall_it (res s') = overall_it (res s).
  Proof.
    unfold adjustPenalty. destruct (_ && _); [discriminate|]. cbn.
    destruct (box_size (res s)); [discriminate|]. intros [= <-]. cbn. eauto.
  Qed.

  Lemma counted_penalty fuel pfuel i s s' :
    counted s -> penalty_loop P E fuel pfuel i s = Ok s' -> counted s'.
  Proof.
    apply penalty_inv; auto.
    - intros s0 [Hc Hp] Hlt. split; cbn; auto.
      intros newer older Heq. destruct newer as [|e newer].
      + injection Heq as <-. lia.
      + injection Heq as _ Heq. eapply Hp; eauto.
    - intros; apply counted_body; auto.
    - intros s0 s1 [Hc Hp] _ Ha. apply adjust_trace in Ha as (v & b & a & Htr & Hit).
      split.
      + rewrite Hit, Htr. cbn. exact Hc.
      + rewrite Htr. intros newer older Heq.
        destruct newer as [|e newer]; [discriminate|]. injection Heq as _ Heq. eapply Hp; eauto.
  Qed.

  Lemma solve_convexify_budget fuel pfuel vars0 w s : solve P E fuel pfuel vars0 w = Ok s ->
    forall newer older, trace s = newer ++ EvConvexify :: older ->
      (Z.of_nat (count_qp older) < max_iterations P)%Z.
  Proof.
    intros Hs. apply solve_inv_eq in Hs as (s1 & Hp & ->).
    apply counted_penalty in Hp.
    - destruct Hp as [_ Hp]. intros newer older Heq. apply (Hp newer).
      revert Heq. cbn. destruct (status_eqb (status s1) kRunning); auto.
    - split; cbn; auto. intros [|? ?] ? ?; discriminate.
  Qed.

  (** ** Fuel monotonicity *)
  Lemma tr_loop_mono fuel fuel' f s s' : (fuel <= fuel')%nat ->
    tr_loop P E fuel f s = Ok s' -> tr_loop P E fuel' f s = Ok s'.
  Proof.
    revert fuel' f s; induction fuel as [|fuel IH]; intros fuel' f s Hle Hr.
    - destruct fuel'; cbn [tr_loop] in *; destruct (vmaxc _); try discriminate;
        destruct (nleb _ _); try discriminate; auto.
    - destruct fuel' as [|fuel']; [lia|]. cbn [tr_loop] in *.
      destruct (vmaxc _); try discriminate. destruct (nleb _ _); auto.
      destruct (tr_body P E f s); auto. apply IH; auto; lia.
  Qed.

  Lemma step_mono fuel fuel' s r : (fuel <= fuel')%nat ->
    stepSQPSolver P E fuel s = Ok r -> stepSQPSolver P E fuel' s = Ok r.
  Proof.
    intros Hle. unfold stepSQPSolver, runTrustRegionLoop.
    destruct (tr_loop P E fuel 0 _) as [s2| |] eqn:El; cbn [obind]; try discriminate.
    rewrite (tr_loop_mono _ _ _ _ _ Hle El). cbn [obind]. auto.
  Qed.

  Lemma convex_mono fuel fuel' k s r : (fuel <= fuel')%nat ->
    convex_loop P E fuel k s = Ok r -> convex_loop P E fuel' k s = Ok r.
  Proof.
    intros Hle. revert s; induction k as [|k IH]; intros s; cbn [convex_loop]; auto.
    destruct (clock E (world s)) as [w el].
    destruct (nltb _ el); auto. destruct (_ >=? _)%Z; auto.
    destruct (stepSQPSolver P E fuel (set_world s w)) as [[s2 b]| |] eqn:Es; cbn [obind]; try discriminate.
    rewrite (step_mono _ _ _ _ Hle Es). cbn [obind]. destruct b; auto.
  Qed.

  Lemma penalty_mono fuel fuel' pf pf' i s r : (fuel <= fuel')%nat -> (pf <= pf')%nat ->
    penalty_loop P E fuel pf i s = Ok r -> penalty_loop P E fuel' pf' i s = Ok r.
  Proof.
    intros Hle. revert pf' i s; induction pf as [|pf IH]; intros pf' i s Hpf.
    - destruct pf'; cbn [penalty_loop]; destruct (nltb (nofZ i) _); try discriminate; auto.
    - destruct pf' as [|pf']; [lia|]. cbn [penalty_loop].
      destruct (nltb (nofZ i) _); auto.
      destruct (convex_loop P E fuel 99 _) as [s2| |] eqn:Ec; cbn [obind]; try discriminate.
      rewrite (convex_mono _ _ _ _ _ Hle Ec). cbn [obind].
      destruct (verifySQPSolverConvergence P s2); auto.
      destruct (_ || _); auto.
      destruct (adjustPenalty P E (set_status s2 kRunning)) as [s3| |]; cbn [obind]; try discriminate.
      apply IH; lia.
  Qed.

  (** A trust-region loop that ends with a given fuel solves at most that many QPs. *)
  Lemma tr_loop_qp_count fuel f s s' : tr_loop P E fuel f s = Ok s' ->
    exists ev, trace s' = ev ++ trace s /\ (count_qp ev <= fuel)%nat /\ ~ In EvConvexify ev.
  Proof.
    revert f s; induction fuel as [|fuel IH]; intros f s; cbn [tr_loop];
      destruct (vmaxc _) as [m|]; try discriminate; destruct (nleb _ m); try discriminate;
      try (intros [= <-]; exists []; cbn; repeat split; auto; lia).
    destruct (tr_body P E f s) as [f2 s2|s2] eqn:Eb; intros Hr.
    - destruct (body_events f s s2) as (_ & ev & Htr & Hq & Hn & _); [eauto|].
      apply IH in Hr as (ev2 & Htr2 & Hq2 & Hn2).
      exists (ev2 ++ ev). rewrite Htr2, Htr, app_assoc, count_qp_app. repeat split; auto; [lia|].
      intros Hin. apply in_app_or in Hin as [?|?]; auto.
    - injection Hr as <-.
      destruct (body_events f s s2) as (_ & ev & Htr & Hq & Hn & _); [eauto|].
      exists ev. repeat split; auto; lia.
  Qed.

  (** ** All QP solves fail (C07) *)
  Definition always_fails : Prop := forall w, snd (qp_solve E w) = None.

  Lemma fail_body f s : always_fails ->
    match tr_body P E f s with
    | TrReturn s' => best (res s') = best (res s) /\ (f + 1 > max_qp_solver_failures P)%Z
    | TrContinue f' s' => best (res s') = best (res s) /\ f' = (f + 1)%Z /\ (f' <= max_qp_solver_failures P)%Z
    end.
  Proof.
    intros Hf. unfold tr_body, solveQPProblem. cbn [world set_res].
    specialize (Hf (world s)). destruct (qp_solve E (world s)) as [w [x|]]; cbn in Hf; [discriminate|].
    cbn -[scale_box min_box Z.ltb Z.eqb Z.add].
    destruct (f + 1 <? max_qp_solver_failures P)%Z eqn:E1.
    - apply Z.ltb_lt in E1. cbn. repeat split; auto; lia.
    - apply Z.ltb_ge in E1. destruct (f + 1 =? max_qp_solver_failures P)%Z eqn:E2.
      + apply Z.eqb_eq in E2. cbn. repeat split; auto; lia.
      + apply Z.eqb_neq in E2. cbn. split; auto; lia.
  Qed.

  Lemma fail_run_count fuel f s s' : always_fails ->
    tr_loop P E fuel f s = Ok s' ->
    exists ev, trace s' = ev ++ trace s /\
      (Z.of_nat (count_qp ev) <= Z.max 0 (max_qp_solver_failures P - f) + 1)%Z.
  Proof.
    intros Hf. revert f s; induction fuel as [|fuel IH]; intros f s; cbn [tr_loop];
      destruct (vmaxc _) as [m|]; try discriminate; destruct (nleb _ m); try discriminate;
      try (intros [= <-]; exists []; cbn; split; auto; lia).
    pose proof (fail_body f s Hf) as Hb.
    destruct (tr_body P E f s) as [f2 s2|s2] eqn:Eb; intros Hr.
    - destruct (body_events f s s2) as (_ & ev & Htr & Hq & _); [eauto|].
      apply IH in Hr as (ev2 & Htr2 & Hq2). destruct Hb as (_ & -> & Hle).
      exists (ev2 ++ ev). rewrite Htr2, Htr, app_assoc, count_qp_app, Hq. split; auto. lia.
    - injection Hr as <-. destruct (body_events f s s2) as (_ & ev & Htr & Hq & _); [eauto|].
      exists ev. rewrite Hq. split; auto. lia.
  Qed.

  Lemma fail_keeps_best fuel pfuel vars0 w s : always_fails ->
    solve P E fuel pfuel vars0 w = Ok s -> e_vars (best (res s)) = vars0.
  Proof.
    intros Hf Hs. apply solve_inv_eq in Hs as (s1 & Hp & ->).
    assert (Hr : e_vars (best (res s1)) = vars0).
    { revert Hp. apply (penalty_inv (fun s => e_vars (best (res s)) = vars0)); auto.
      - intros f s m HI _ _. pose proof (fail_body f s Hf) as Hb.
        destruct (tr_body P E f s) as [f2 s2|s2]; destruct Hb as [Hb _]; rewrite Hb; auto.
      - intros s s' HI _. unfold adjustPenalty. destruct (_ && _); [discriminate|]. cbn.
        destruct (box_size (res s)); [discriminate|]. intros [= <-]. cbn. auto. }
    cbn. destruct (status_eqb (status s1) kRunning); auto.
  Qed.

  (** ** A callback that answers false (C06): within its own trust-region loop the solver
      returns at once and does not accept the step. *)
  Lemma stopped_body f s s1 : 
    solveQPProblem E (set_res s (with_its (res s) (penalty_it (res s)) (convexify_it (res s))
        (tr_it (res s) + 1) (overall_it (res s) + 1))) = (s1, kStoppedByCallback) ->
    tr_body P E f s = TrReturn (set_status s1 kStoppedByCallback) /\ best (res s1) = best (res s).
  Proof.
    intros Hq. unfold tr_body. rewrite Hq. split; auto.
    revert Hq. unfold solveQPProblem. destruct (qp_solve E _) as [w [x|]]; [|discriminate].
    cbn. destruct (callbacks E w _) as [w' ans]. intros [= <- _]. reflexivity.
  Qed.
  (** ** What happens right after a callback answered false (C06) *)
  Section Inv3.
    Variables I J : sst -> Prop.
    Hypothesis JI : forall s, J s -> I s.
    Hypothesis J_its : forall s p c t, J s -> J (set_res s (with_its (res s) p c t (overall_it (res s)))).
    Hypothesis I_its : forall s p c t, I s -> I (set_res s (with_its (res s) p c t (overall_it (res s)))).
    Hypothesis I_status : forall s st, I s -> I (set_status s st).
    Hypothesis I_world : forall s w, I s -> I (set_world s w).
    Hypothesis I_convexify : forall s, I s -> J (emit s EvConvexify).
    Hypothesis I_body : forall f s, J s ->
      match tr_body P E f s with TrReturn s' => I s' | TrContinue _ s' => J s' end.
    Hypothesis I_adjust : forall s s', I s -> adjustPenalty P E s = Ok s' -> I s'.

    Lemma tr_loop_inv3 fuel f s s' : J s -> tr_loop P E fuel f s = Ok s' -> I s'.
    Proof.
      revert f s; induction fuel as [|fuel IH]; intros f s HJ; cbn [tr_loop];
        destruct (vmaxc (box_size (res s))) as [m|] eqn:Em; try discriminate;
        destruct (nleb (min_trust_box_size P) m) eqn:El; try discriminate;
        try (intros [= <-]; apply JI; exact HJ).
      pose proof (I_body f s HJ) as Hb.
      destruct (tr_body P E f s) as [f2 s2|s2]; [apply IH; exact Hb|intros [= <-]; exact Hb].
    Qed.

    Lemma step_inv3 fuel s s' b : I s -> stepSQPSolver P E fuel s = Ok (s', b) -> I s'.
    Proof.
      intros HI. unfold stepSQPSolver. set (s1 := emit _ _).
      assert (H1 : J s1) by (subst s1; apply I_convexify, I_world, I_its; exact HI).
      unfold runTrustRegionLoop.
      destruct (tr_loop P E fuel 0 _) as [s2| |] eqn:Er; cbn [obind]; try discriminate.
      apply tr_loop_inv3 in Er; [|apply J_its; exact H1].
      destruct (status_eqb (status s2) kConverged); [intros [= <- _]; exact Er|].
      destruct (vmaxc (box_size (res s2))) as [m|]; try discriminate.
      destruct (nltb m (min_trust_box_size P)); intros [= <- _]; auto.
    Qed.

    Lemma convex_inv3 fuel k s s' : I s -> convex_loop P E fuel k s = Ok s' -> I s'.
    Proof.
      revert s; induction k as [|k IH]; intros s HI; cbn [convex_loop]; [intros [= <-]; exact HI|].
      destruct (clock E (world s)) as [w el].
      destruct (nltb (max_time P) el); [intros [= <-]; auto|].
      destruct (overall_it _ >=? max_iterations P)%Z; [intros [= <-]; auto|].
      destruct (stepSQPSolver P E fuel (set_world s w)) as [[s2 b]| |] eqn:Es; cbn [obind]; try discriminate.
      apply step_inv3 in Es; auto.
      destruct b; [intros [= <-]; auto|apply IH; auto].
    Qed.

    Lemma penalty_inv3 fuel pfuel i s s' : I s -> penalty_loop P E fuel pfuel i s = Ok s' -> I s'.
    Proof.
      revert i s; induction pfuel as [|pfuel IH]; intros i s HI; cbn [penalty_loop];
        destruct (nltb (nofZ i) (max_merit_coeff_increases P)); try discriminate;
        try (intros [= <-]; exact HI).
      destruct (convex_loop P E fuel 99 _) as [s2| |] eqn:Ec; cbn [obind]; try discriminate.
      apply convex_inv3 in Ec; auto.
      destruct (verifySQPSolverConvergence P s2) eqn:Ev; [intros [= <-]; auto|].
      destruct (status_eqb (status s2) kIterationLimit || status_eqb (status s2) kTimeLimit); [intros [= <-]; auto|].
      destruct (adjustPenalty P E (set_status s2 kRunning)) as [s3| |] eqn:Ea; cbn [obind]; try discriminate.
      apply IH. eapply I_adjust; [|exact Ea]; auto.
    Qed.
  End Inv3.

  Definition stop_ok (tr : list (event T)) : Prop :=
    forall newer e older, tr = newer ++ e :: EvCallback false :: older ->
      e = EvConvexify \/ exists v b a, e = EvPenalty v b a.
  Definition head_ok (tr : list (event T)) : Prop := forall older, tr <> EvCallback false :: older.

  Lemma stop_ok_cons e tr : stop_ok tr -> head_ok tr -> stop_ok (e :: tr).
  Proof.
    intros Hs Hh newer e' older Heq. destruct newer as [|x newer]; injection Heq as -> Heq.
    - exfalso. eapply Hh; eauto.
    - eapply Hs; eauto.
  Qed.
  Lemma stop_ok_cons' e tr : stop_ok tr -> (e = EvConvexify \/ exists v b a, e = EvPenalty v b a) -> stop_ok (e :: tr).
  Proof.
    intros Hs Hh newer e' older Heq. destruct newer as [|x newer]; injection Heq as -> Heq; [exact Hh|].
    eapply Hs; eauto.
  Qed.

  Lemma stop_body f s : stop_ok (trace s) /\ head_ok (trace s) ->
    match tr_body P E f s with
    | TrReturn s' => stop_ok (trace s')
    | TrContinue _ s' => stop_ok (trace s') /\ head_ok (trace s') end.
  Proof.
    intros [Hs Hh]. unfold tr_body. set (s0 := set_res s _).
    destruct (solveQPProblem E s0) as [s1 st] eqn:Eq.
    assert (Hc : (st = kQPSolveFailed /\ trace s1 = EvQP false :: trace s) \/
                 (st = kRunning /\ trace s1 = EvCallback true :: EvQP true :: trace s) \/
                 (st = kStoppedByCallback /\ trace s1 = EvCallback false :: EvQP true :: trace s)).
    { revert Eq. unfold solveQPProblem. destruct (qp_solve E (world s0)) as [w [x|]].
      - cbn. destruct (callbacks E w _) as [w' ans]. intros [= <- <-]. cbn.
        destruct (forallb _ ans); auto.
      - cbn. intros [= <- <-]. auto. }
    assert (Hq : forall ok, stop_ok (EvQP ok :: trace s)) by (intros; apply stop_ok_cons; auto).
    assert (Hc2 : forall ok k, stop_ok (EvCallback ok :: EvQP k :: trace s)).
    { intros. apply stop_ok_cons; [apply Hq|]. intros o Ho; discriminate. }
    destruct Hc as [[-> Ht]|[[-> Ht]|[-> Ht]]]; cbn [res set_status].
    - destruct (_ <? _)%Z; [cbn; rewrite Ht; split; [apply Hq|intros o Ho; discriminate]|].
      destruct (_ =? _)%Z; cbn; rewrite Ht; [split; [apply Hq|intros o Ho; discriminate]|apply Hq].
    - destruct (nltb _ (min_approx_improve P)); [cbn; rewrite Ht; apply Hc2|].
      destruct (nltb _ (min_approx_improve_frac P)); [cbn; rewrite Ht; apply Hc2|].
      destruct (_ || _); cbn; rewrite Ht.
      + split; [apply stop_ok_cons; [apply Hc2|]|]; intros o Ho; discriminate.
      + apply stop_ok_cons; [apply Hc2|]. intros o Ho; discriminate.
    - cbn. rewrite Ht. apply Hc2.
  Qed.

  Lemma solve_stop_ok fuel pfuel vars0 w s : solve P E fuel pfuel vars0 w = Ok s ->
    forall newer e older, trace s = newer ++ e :: EvCallback false :: older ->
      e = EvConvexify \/ exists v b a, e = EvPenalty v b a.
  Proof.
    intros Hs. apply solve_inv_eq in Hs as (s1 & Hp & ->).
    assert (Hm : stop_ok (trace s1)).
    { revert Hp. apply (penalty_inv3 (fun s => stop_ok (trace s)) (fun s => stop_ok (trace s) /\ head_ok (trace s))).
      - intros s [? ?]; auto.
      - auto.
      - auto.
      - auto.
      - auto.
      - intros s HI. split; [apply stop_ok_cons'; auto|intros o Ho; discriminate].
      - intros; apply stop_body; auto.
      - intros s s' HI Ha. apply adjust_trace in Ha as (v & b & a & -> & _). apply stop_ok_cons'; eauto.
      - intros [|? ?] ? ? Heq; discriminate. }
    cbn. destruct (status_eqb (status s1) kRunning); exact Hm.
  Qed.
End Generic.
