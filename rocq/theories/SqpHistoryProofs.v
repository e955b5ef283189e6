(** Proofs for C74 and C75. *)
From Coq Require Import List ZArith Bool Lia.
From Verif Require Import Num NumFacts SqpModel SqpProofs SqpHistorySpec.
Import ListNotations.

Section Hist.
  Context {T : Type} {NT : Num T} {W : Type}.
  Variable P : sqp_params T.
  Variable E : env T W.
  Notation sst := (sst T W).

  Fixpoint hist_ok (tr : list (event T)) : Prop :=
    match tr with
    | [] => True
    | EvQP _ :: r => nleb (min_trust_box_size P) (box_hist P r) = true /\ hist_ok r
    | EvPenalty _ b _ :: r => b = coeff_hist P (n_cnt E) r /\ hist_ok r
    | _ :: r => hist_ok r
    end.
  Definition hinv (s : sst) : Prop :=
    box_size (res s) = repeat (box_hist P (trace s)) (n_nlp E) /\ p_box s = box_size (res s) /\
    merit_coeffs (res s) = coeff_hist P (n_cnt E) (trace s) /\ hist_ok (trace s).
  Definition finv (f : Z) (s : sst) : Prop := hinv s /\ f = Z.of_nat (fails_since (trace s)).

  Lemma vscale_repeat (k b : T) n : vscale k (repeat b n) = repeat (nmul k b) n.
  Proof. unfold vscale. induction n; cbn; congruence. Qed.
  Lemma vmaxc_repeat_any (b m : T) n : vmaxc (repeat b n) = Some m -> m = b.
  Proof.
    destruct n; cbn; [discriminate|]. intros [= <-].
    assert (H : nmax b b = b) by (unfold nmax; destruct (nltb b b); reflexivity).
    induction n; cbn; auto. rewrite H. exact IHn.
  Qed.

  Lemma hist_body f s m : finv f s -> vmaxc (box_size (res s)) = Some m ->
    nleb (min_trust_box_size P) m = true ->
    match tr_body P E f s with
    | TrReturn s' => hinv s'
    | TrContinue f' s' => finv f' s'
    end.
  Proof.
    intros [(Hb & Hp & Hc & Hok) Hf] Hm Hl. rewrite Hb in Hm. apply vmaxc_repeat_any in Hm. subst m.
    unfold tr_body. set (s0 := set_res s _).
    destruct (solveQPProblem E s0) as [s1 st] eqn:Esq.
    assert (Hs : box_size (res s1) = box_size (res s) /\ p_box s1 = p_box s /\
       merit_coeffs (res s1) = merit_coeffs (res s) /\
       ((st = kQPSolveFailed /\ trace s1 = EvQP false :: trace s) \/
        (st = kRunning /\ trace s1 = EvCallback true :: EvQP true :: trace s) \/
        (st = kStoppedByCallback /\ trace s1 = EvCallback false :: EvQP true :: trace s))).
    { revert Esq. unfold solveQPProblem. destruct (qp_solve E (world s0)) as [w [x|]].
      - cbn. destruct (callbacks E w _) as [w' ans]. intros [= <- <-]. cbn.
        destruct (forallb _ ans); repeat split; auto 6.
      - cbn. intros [= <- <-]. cbn. repeat split; auto. }
    destruct Hs as (Hb1 & Hp1 & Hc1 & Hs).
    destruct Hs as [[-> Ht]|[[-> Ht]|[-> Ht]]]; cbn [res set_status].
    - destruct (Z.ltb_spec (f + 1) (max_qp_solver_failures P)) as [H1|H1].
      + unfold finv, hinv. cbn -[box_hist fails_since vscale]. rewrite Ht, Hp1, Hp, Hb, vscale_repeat, Hc1.
        cbn [hist_ok coeff_hist fails_since box_hist]. repeat split; auto; try lia.
        assert (E1 : (Z.of_nat (S (fails_since (trace s))) ?= max_qp_solver_failures P)%Z = Lt) by (apply Z.compare_lt_iff; lia).
        rewrite E1. reflexivity.
      + destruct (Z.eqb_spec (f + 1) (max_qp_solver_failures P)) as [H2|H2].
        * unfold finv, hinv. cbn -[box_hist fails_since vscale]. rewrite Ht, Hc1.
          cbn [hist_ok coeff_hist fails_since box_hist]. repeat split; auto; try lia.
          assert (E1 : (Z.of_nat (S (fails_since (trace s))) ?= max_qp_solver_failures P)%Z = Eq) by (apply Z.compare_eq_iff; lia).
          rewrite E1. reflexivity.
        * unfold hinv. cbn -[box_hist fails_since vscale]. rewrite Ht, Hp1, Hb1, Hc1, Hp, Hb.
          cbn [hist_ok coeff_hist fails_since box_hist]. repeat split; auto.
          assert (E1 : (Z.of_nat (S (fails_since (trace s))) ?= max_qp_solver_failures P)%Z = Gt) by (apply Z.compare_gt_iff; lia).
          rewrite E1. reflexivity.
    - destruct (nltb _ (min_approx_improve P)); [|destruct (nltb _ (min_approx_improve_frac P)); [|destruct (_ || _)]];
        unfold finv, hinv; cbn -[vscale]; rewrite Ht, ?Hp1, ?Hb1, ?Hc1, ?Hp, ?Hb, ?vscale_repeat; cbn; repeat split; auto.
    - unfold hinv. cbn. rewrite Ht, Hp1, Hb1, Hc1, Hp, Hb. cbn. repeat split; auto.
  Qed.

  Lemma hist_tr fuel f s s' : finv f s -> tr_loop P E fuel f s = Ok s' -> hinv s'.
  Proof.
    revert f s; induction fuel as [|fuel IH]; intros f s HJ; cbn [tr_loop];
      destruct (vmaxc (box_size (res s))) as [m|] eqn:Em; try discriminate;
      destruct (nleb (min_trust_box_size P) m) eqn:El; try discriminate;
      try (intros [= <-]; apply HJ).
    pose proof (hist_body f s m HJ Em El) as Hb.
    destruct (tr_body P E f s) as [f2 s2|s2]; [apply IH; exact Hb|intros [= <-]; exact Hb].
  Qed.

  Lemma hist_step fuel s s' b : hinv s -> stepSQPSolver P E fuel s = Ok (s', b) -> hinv s'.
  Proof.
    intros HI. unfold stepSQPSolver. set (s1 := emit _ _). unfold runTrustRegionLoop.
    destruct (tr_loop P E fuel 0 _) as [s2| |] eqn:Er; cbn [obind]; try discriminate.
    apply hist_tr in Er.
    - destruct (status_eqb (status s2) kConverged); [intros [= <- _]; exact Er|].
      destruct (vmaxc (box_size (res s2))) as [m|]; try discriminate.
      destruct (nltb m (min_trust_box_size P)); intros [= <- _]; exact Er.
    - split; [exact HI|reflexivity].
  Qed.

  Lemma hist_adjust s s' : hinv s -> adjustPenalty P E s = Ok s' -> hinv s'.
  Proof.
    intros (Hb & Hp & Hc & Hok). unfold adjustPenalty. destruct (_ && _); [discriminate|]. cbn [res set_res emit with_merit box_size].
    destruct (box_size (res s)) as [|b0 bs] eqn:Eb; [discriminate|]. intros [= <-].
    assert (Hb0 : b0 = box_hist P (trace s)) by (destruct (n_nlp E); [discriminate|injection Hb as -> _; reflexivity]).
    unfold hinv. cbn. rewrite <- Hb0. repeat split; auto.
  Qed.

  (** the loops, with the clock readings and the number of penalty rounds *)
  Definition late : Prop := exists w w' t, clock E w = (w', t) /\ nltb (max_time P) t = true.
  Definition linv (s : sst) : Prop := hinv s /\ overall_it (res s) = qps (trace s).

  Lemma linv_body f s m : finv f s /\ overall_it (res s) = qps (trace s) -> vmaxc (box_size (res s)) = Some m ->
    nleb (min_trust_box_size P) m = true ->
    match tr_body P E f s with
    | TrReturn s' => (hinv s' /\ overall_it (res s') = qps (trace s')) /\ pens (trace s') = pens (trace s) /\
                     status s' <> kTimeLimit /\ status s' <> kIterationLimit
    | TrContinue f' s' => (finv f' s' /\ overall_it (res s') = qps (trace s')) /\ pens (trace s') = pens (trace s)  /\
                     status s' <> kTimeLimit /\ status s' <> kIterationLimit
    end.
  Proof.
    intros [HF Ho] Hm Hl. pose proof (hist_body f s m HF Hm Hl) as Hb. revert Hb.
    unfold tr_body. set (s0 := set_res s _).
    destruct (solveQPProblem E s0) as [s1 st] eqn:Esq.
    assert (Hs : overall_it (res s1) = (overall_it (res s) + 1)%Z /\
       ((st = kQPSolveFailed /\ trace s1 = EvQP false :: trace s) \/
        (st = kRunning /\ trace s1 = EvCallback true :: EvQP true :: trace s) \/
        (st = kStoppedByCallback /\ trace s1 = EvCallback false :: EvQP true :: trace s))).
    { revert Esq. unfold solveQPProblem. destruct (qp_solve E (world s0)) as [w [x|]].
      - cbn. destruct (callbacks E w _) as [w' ans]. intros [= <- <-]. cbn.
        destruct (forallb _ ans); repeat split; auto 6.
      - cbn. intros [= <- <-]. cbn. repeat split; auto. }
    destruct Hs as (Ho1 & Hs).
    destruct Hs as [[-> Ht]|[[-> Ht]|[-> Ht]]]; cbn [res set_status].
    - destruct (_ <? _)%Z; [|destruct (_ =? _)%Z]; intros Hh; (split; [split; [exact Hh|]|]); cbn; rewrite Ht, ?Ho1, ?Ho;
        cbn; repeat split; auto; discriminate.
    - destruct (nltb _ (min_approx_improve P)); [|destruct (nltb _ (min_approx_improve_frac P)); [|destruct (_ || _)]];
        intros Hh; (split; [split; [exact Hh|]|]); cbn; rewrite Ht, ?Ho1, ?Ho; cbn; repeat split; auto; discriminate.
    - intros Hh; (split; [split; [exact Hh|]|]); cbn; rewrite Ht, ?Ho1, ?Ho; cbn; repeat split; auto; discriminate.
  Qed.

  Definition quiet (s : sst) : Prop := status s <> kTimeLimit /\ status s <> kIterationLimit.

  Lemma linv_tr fuel f s s' : finv f s /\ overall_it (res s) = qps (trace s) -> quiet s ->
    tr_loop P E fuel f s = Ok s' ->
    linv s' /\ pens (trace s') = pens (trace s) /\ quiet s'.
  Proof.
    revert f s; induction fuel as [|fuel IH]; intros f s HJ HQ; cbn [tr_loop];
      destruct (vmaxc (box_size (res s))) as [m|] eqn:Em; try discriminate;
      destruct (nleb (min_trust_box_size P) m) eqn:El; try discriminate;
      try (intros [= <-]; destruct HJ as [[HJ _] Ho]; repeat split; auto; first [apply HJ|apply HQ]).
    pose proof (linv_body f s m HJ Em El) as Hb.
    destruct (tr_body P E f s) as [f2 s2|s2].
    - destruct Hb as (Hb & Hp & Hq). intros Hr. apply IH in Hr; [|exact Hb|exact Hq]. rewrite <- Hp. exact Hr.
    - intros [= <-]; exact Hb.
  Qed.

  Lemma linv_step fuel s s' b : linv s -> quiet s -> stepSQPSolver P E fuel s = Ok (s', b) ->
    linv s' /\ pens (trace s') = pens (trace s) /\ quiet s'.
  Proof.
    intros HI HQ. unfold stepSQPSolver. set (s1 := emit _ _). unfold runTrustRegionLoop.
    destruct (tr_loop P E fuel 0 _) as [s2| |] eqn:Er; cbn [obind]; try discriminate.
    apply linv_tr in Er; [|split; [split; [apply HI|reflexivity]|apply HI]|exact HQ].
    destruct (status_eqb (status s2) kConverged); [intros [= <- _]; exact Er|].
    destruct (vmaxc (box_size (res s2))) as [m|]; try discriminate.
    destruct (nltb m (min_trust_box_size P)); intros [= <- _]; [|exact Er].
    destruct Er as (A & B & _). repeat split; try apply A; auto; discriminate.
  Qed.

  Lemma linv_convex fuel k s s' : linv s -> quiet s -> convex_loop P E fuel k s = Ok s' ->
    linv s' /\ pens (trace s') = pens (trace s) /\
    (status s' = kTimeLimit -> late) /\ (status s' = kIterationLimit -> (max_iterations P <= qps (trace s'))%Z).
  Proof.
    revert s; induction k as [|k IH]; intros s HI HQ; cbn [convex_loop].
    { intros [= <-]. destruct HQ as [Q1 Q2]. repeat split; try apply HI; intros; congruence. }
    destruct (clock E (world s)) as [w el] eqn:Ek.
    destruct (nltb (max_time P) el) eqn:El.
    { intros [= <-]. repeat split; try apply HI; [|discriminate]. intros _. exists (world s), w, el. auto. }
    destruct (overall_it (res (set_world s w)) >=? max_iterations P)%Z eqn:Hit.
    { intros [= <-]. repeat split; try apply HI; [discriminate|]. intros _. cbn in *. destruct HI as [_ HI]. rewrite Z.geb_leb, Z.leb_le in Hit. lia. }
    destruct (stepSQPSolver P E fuel (set_world s w)) as [[s2 b]| |] eqn:Es; cbn [obind]; try discriminate.
    apply linv_step in Es; [|exact HI|exact HQ]. destruct Es as (A & B & C).
    cbn in B. destruct b.
    - intros [= <-]. repeat split; try apply A; auto; destruct C; intros; congruence.
    - intros Hr. apply IH in Hr; auto. rewrite <- B. exact Hr.
  Qed.

  Lemma adjust_viols s s' : adjustPenalty P E s = Ok s' -> e_viols (best (res s')) = e_viols (best (res s)).
  Proof.
    unfold adjustPenalty. destruct (_ && _); [discriminate|]. cbn [res set_res emit with_merit box_size].
    destruct (box_size (res s)) as [|b0 bs] eqn:Eb; [discriminate|]. intros [= <-]. reflexivity.
  Qed.

  Lemma linv_penalty fuel pfuel i s s' : linv s -> status s = kRunning -> i = pens (trace s) ->
    (i = 0%Z \/ verifySQPSolverConvergence P s = false) ->
    penalty_loop P E fuel pfuel i s = Ok s' ->
    linv s' /\ (status s' = kTimeLimit -> late /\ verifySQPSolverConvergence P s' = false) /\
    (status s' = kIterationLimit -> (max_iterations P <= qps (trace s'))%Z /\ verifySQPSolverConvergence P s' = false) /\
    (status s' = kRunning -> nltb (nofZ (pens (trace s'))) (max_merit_coeff_increases P) = false /\
                             (pens (trace s') = 0%Z \/ verifySQPSolverConvergence P s' = false)).
  Proof.
    revert i s; induction pfuel as [|pfuel IH]; intros i s HI Hst Hi Hv; cbn [penalty_loop];
      destruct (nltb (nofZ i) (max_merit_coeff_increases P)) eqn:En; try discriminate;
      try (intros [= <-]; repeat split; try apply HI; intros; try congruence; subst i; auto).
    destruct (convex_loop P E fuel 99 _) as [s2| |] eqn:Ec; cbn [obind]; try discriminate.
    apply linv_convex in Ec; [|exact HI|split; cbn; rewrite Hst; discriminate].
    destruct Ec as (A & B & C & D). cbn in B.
    destruct (verifySQPSolverConvergence P s2) eqn:Ev.
    { intros [= <-]. repeat split; try apply A; discriminate. }
    destruct (status_eqb (status s2) kIterationLimit || status_eqb (status s2) kTimeLimit) eqn:Eo.
    { intros [= <-]. apply orb_prop in Eo. repeat split; try apply A; auto.
      all: intros; destruct Eo as [Eo|Eo]; apply status_eqb_true in Eo; congruence. }
    destruct (adjustPenalty P E (set_status s2 kRunning)) as [s3| |] eqn:Ea; cbn [obind]; try discriminate.
    pose proof (adjust_status P E _ _ Ea) as Hs3. pose proof (adjust_trace P E _ _ Ea) as (v & b & a & Ht & Ho).
    pose proof (adjust_viols _ _ Ea) as Hv3.
    apply hist_adjust in Ea; [|exact (proj1 A)].
    apply IH; auto.
    - split; auto. rewrite Ho, Ht. cbn. apply A.
    - rewrite Ht. cbn. lia.
    - right. revert Ev. unfold verifySQPSolverConvergence. rewrite Hv3. auto.
  Qed.

  Lemma linv_init vars0 w : linv (init P E vars0 w).
  Proof. unfold linv, hinv. cbn. repeat split. Qed.

  Lemma solve_linv fuel pfuel vars0 w s : solve P E fuel pfuel vars0 w = Ok s ->
    linv s /\ (status s = kTimeLimit -> late /\ verifySQPSolverConvergence P s = false) /\
    (status s = kIterationLimit -> (max_iterations P <= qps (trace s))%Z /\ verifySQPSolverConvergence P s = false) /\
    (status s = kPenaltyIterationLimit -> nltb (nofZ (pens (trace s))) (max_merit_coeff_increases P) = false /\
       (pens (trace s) = 0%Z \/ verifySQPSolverConvergence P s = false)).
  Proof.
    intros Hs. pose proof Hs as Hst. apply solve_inv_eq in Hs as (s1 & Hp & ->).
    pose proof (penalty_status P E _ _ _ _ _ (eq_refl : status (init P E vars0 w) = kRunning) Hp) as Hps.
    apply linv_penalty in Hp; [|apply linv_init|reflexivity|reflexivity|left; reflexivity].
    destruct Hp as (A & B & C & D).
    destruct (status_eqb (status s1) kRunning) eqn:Er.
    - apply status_eqb_true in Er. cbn. repeat split; try apply A; try discriminate; apply D; exact Er.
    - cbn. repeat split; try apply A; try (apply B; assumption); try (apply C; assumption).
      all: destruct Hps as [[Hps _]|[Hps|[Hps|Hps]]]; try congruence; rewrite Hps in Er; discriminate.
  Qed.

  Lemma hist_ok_qp tr newer ok older : hist_ok tr -> tr = newer ++ EvQP ok :: older ->
    nleb (min_trust_box_size P) (box_hist P older) = true.
  Proof.
    intros H ->. induction newer as [|e newer IH]; cbn [app] in H.
    - apply H.
    - apply IH. destruct e; cbn in H; apply H.
  Qed.
  Lemma hist_ok_pen tr newer v b a older : hist_ok tr -> tr = newer ++ EvPenalty v b a :: older ->
    b = coeff_hist P (n_cnt E) older.
  Proof.
    intros H ->. induction newer as [|e newer IH]; cbn [app] in H.
    - apply H.
    - apply IH. destruct e; cbn in H; apply H.
  Qed.

  (** a clock that is always late *)
  Lemma late_clock fuel pfuel vars0 w s : (forall w, nltb (max_time P) (snd (clock E w)) = true) ->
    nltb (nofZ 0) (max_merit_coeff_increases P) = true ->
    solve P E fuel pfuel vars0 w = Ok s -> trace s = [] /\ (status s = kTimeLimit \/ status s = kConverged).
  Proof.
    intros Hk Hm Hs. apply solve_inv_eq in Hs as (s1 & Hp & ->). destruct pfuel; cbn [penalty_loop] in Hp; rewrite Hm in Hp; [discriminate|].
    cbn [convex_loop] in Hp. match type of Hp with context [clock E ?w] => specialize (Hk w); destruct (clock E w) as [w1 el] end.
    cbn [snd] in Hk. rewrite Hk in Hp. cbn [obind] in Hp.
    destruct (verifySQPSolverConvergence _ _); [injection Hp as <-; cbn; auto|]. cbn in Hp. injection Hp as <-. cbn. auto.
  Qed.

  Lemma verify_false s : verifySQPSolverConvergence P (s : sst) = false ->
    exists m, vmaxc (e_viols (best (res s))) = Some m /\ nltb m (cnt_tolerance P) = false.
  Proof. unfold verifySQPSolverConvergence. destruct (vmaxc _); [eauto|discriminate]. Qed.
End Hist.
