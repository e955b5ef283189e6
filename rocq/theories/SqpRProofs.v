(** Proofs about the SQP solver model over the reals. *)
From Coq Require Import List ZArith Bool Lia Reals Lra.
From Verif Require Import Num NumFacts SqpModel SqpSpec SqpProofs.
Import ListNotations.

Lemma count_qp_spec {T} (tr : list (event T)) : count_qp tr = qp_solves tr.
Proof. unfold count_qp. induction tr as [|[] tr IH]; cbn; auto. Qed.
Lemma qp_solves_app {T} (a b : list (event T)) : qp_solves (a ++ b) = (qp_solves a + qp_solves b)%nat.
Proof. rewrite <- !count_qp_spec. apply count_qp_app. Qed.

Lemma inflate_length (P : sqp_params R) v c : length v = length c -> length (inflate P v c) = length c.
Proof.
  revert c; induction v as [|x v IH]; intros [|y c] Hl; cbn in *; try lia. rewrite IH; lia.
Qed.

Section RSec.
  Context {W : Type}.
  Variable P : sqp_params R.
  Variable E : env R W.
  Notation sst := (sst R W).

  (** ** Accepted steps (C03) *)
  Definition minv (m0 : R) (s : sst) : Prop :=
    coherent E s /\ merit_run m0 (trace s) (e_merit (best (res s))).

  Lemma minv_body m0 f s : minv m0 s ->
    match tr_body P E f s with TrReturn s' => minv m0 s' | TrContinue _ s' => minv m0 s' end.
  Proof.
    intros [Hc Hm]. pose proof (coherent_body P E f s Hc) as Hcb.
    revert Hcb. unfold tr_body. set (s0 := set_res s _).
    assert (H0 : coherent E s0) by (apply coherent_its; exact Hc).
    destruct (solveQPProblem E s0) as [s1 st] eqn:Eq.
    apply solveQP_spec in Eq; auto.
    destruct Eq as (H1 & Hbest & Hmer & Hbx & [(-> & Hr & Htr)|(ok & -> & Htr & Hn & Hei & _)]).
    - assert (Hm1 : merit_run m0 (trace s1) (e_merit (best (res s1)))).
      { rewrite Htr, Hbest. constructor. exact Hm. }
      destruct (f + 1 <? max_qp_solver_failures P)%Z; [intros Hcb; split; auto|].
      destruct (f + 1 =? max_qp_solver_failures P)%Z; intros Hcb; split; auto.
    - assert (Hm1 : merit_run m0 (trace s1) (e_merit (best (res s1)))).
      { rewrite Htr, Hbest. constructor. constructor. exact Hm. }
      destruct ok; [|intros Hcb; split; auto].
      cbn [res set_status]. destruct (nltb _ (min_approx_improve P)); [intros Hcb; split; auto|].
      destruct (nltb _ (min_approx_improve_frac P)); [intros Hcb; split; auto|].
      destruct (nltb (exact_improve (res s1)) nzero) eqn:Ee; cbn [orb].
      + intros Hcb; split; auto. cbn. constructor; exact Hm1.
      + destruct (nltb _ (improve_ratio_threshold P)); intros Hcb; split; auto; cbn.
        * constructor; exact Hm1.
        * constructor; [exact Hm1|]. rewrite Hei in Ee. rnum. rcmp.
          change (best (res s0)) with (best (res s)) in *. rewrite Hbest. lra.
  Qed.

  Lemma solve_merit_run fuel pfuel vars0 w s : length vars0 = n_nlp E ->
    solve P E fuel pfuel vars0 w = Ok s ->
    merit_run (merit_of (exact_costs E vars0) (exact_viols E vars0)
                 (repeat (initial_merit_error_coeff P) (n_cnt E)))
      (trace s) (e_merit (best (res s))).
  Proof.
    intros Hl Hs. apply solve_inv_eq in Hs as (s1 & Hp & ->).
    set (m0 := merit_of _ _ _).
    assert (Hm : minv m0 s1).
    { revert Hp. apply penalty_inv.
      - intros s p c t [Hc Hm]; split; auto.
      - intros s st [Hc Hm]; split; auto.
      - intros s w' [Hc Hm]; split; auto.
      - intros s [Hc Hm] _; split; auto. constructor; exact Hm.
      - intros; apply minv_body; auto.
      - intros s s' [Hc Hm] _ Ha. split; [eapply coherent_adjust; eauto|].
        apply adjust_trace in Ha as (v & b & a & Htr & _). rewrite Htr. econstructor; eauto.
      - split; [apply coherent_init; auto|]. cbn. constructor. }
    destruct Hm as [_ Hm]. cbn. destruct (status_eqb (status s1) kRunning); exact Hm.
  Qed.

  (** Sufficient decrease of every accepted step. *)
  Definition decr (s : sst) : Prop :=
    coherent E s /\ forall a b, In (EvAccept a b) (trace s) ->
      (a - b >= improve_ratio_threshold P * min_approx_improve P)%R.

  Lemma decr_body f s : (0 <= improve_ratio_threshold P)%R -> (/ 10 ^ 12 <= min_approx_improve P)%R -> decr s ->
    match tr_body P E f s with TrReturn s' => decr s' | TrContinue _ s' => decr s' end.
  Proof.
    intros Hthr Hmin [Hc Hd]. pose proof (coherent_body P E f s Hc) as Hcb.
    revert Hcb. unfold tr_body. set (s0 := set_res s _).
    assert (H0 : coherent E s0) by (apply coherent_its; exact Hc).
    destruct (solveQPProblem E s0) as [s1 st] eqn:Eq.
    apply solveQP_spec in Eq; auto.
    destruct Eq as (H1 & Hbest & Hmer & Hbx & [(-> & Hr & Htr)|(ok & -> & Htr & Hn & Hei & Hai & Hra)]).
    - assert (Hd1 : forall a b, In (EvAccept a b) (trace s1) ->
        (a - b >= improve_ratio_threshold P * min_approx_improve P)%R).
      { rewrite Htr. intros a b [Hx|Hin]; [discriminate|]. apply Hd; exact Hin. }
      destruct (f + 1 <? max_qp_solver_failures P)%Z; [intros Hcb; split; auto|].
      destruct (f + 1 =? max_qp_solver_failures P)%Z; intros Hcb; split; auto.
    - assert (Hd1 : forall a b, In (EvAccept a b) (trace s1) ->
        (a - b >= improve_ratio_threshold P * min_approx_improve P)%R).
      { rewrite Htr. intros a b [Hx|[Hx|Hin]]; try discriminate. apply Hd; exact Hin. }
      destruct ok; [|intros Hcb; split; auto].
      cbn [res set_status]. destruct (nltb _ (min_approx_improve P)) eqn:E1; [intros Hcb; split; auto|].
      destruct (nltb _ (min_approx_improve_frac P)); [intros Hcb; split; auto|].
      destruct (nltb (exact_improve (res s1)) nzero) eqn:Ee; cbn [orb].
      + intros Hcb; split; auto. cbn. intros a b [Hx|Hin]; [discriminate|auto].
      + destruct (nltb _ (improve_ratio_threshold P)) eqn:Er; intros Hcb; split; auto; cbn.
        * intros a b [Hx|Hin]; [discriminate|auto].
        * intros a b [Hx|Hin]; [|auto]. injection Hx as <- <-.
          rewrite Hra in Er. rnum. cbn [Rdec Pos.to_nat] in Er.
          change (Pos.to_nat 12) with 12%nat in Er.
          apply Rltb_false in E1.
          assert (Hpos : (0 < / 10 ^ 12)%R) by (apply Rinv_0_lt_compat; lra).
          destruct (Rltb_spec (Rabs (approx_improve (res s1))) (1 / 10 ^ 12)) as [Hs|Hs].
          { rewrite Rabs_pos_eq in Hs by lra. lra. }
          apply Rltb_false in Er. rewrite Hbest. rewrite Hei in Er, Ee.
          change (best (res s0)) with (best (res s)) in *.
          set (ei := (e_merit (best (res s)) - e_merit (new (res s1)))%R) in *.
          assert (Hap : (0 < approx_improve (res s1))%R) by lra.
          assert (ei >= improve_ratio_threshold P * approx_improve (res s1))%R.
          { apply Rle_ge. apply Rmult_le_reg_r with (/ approx_improve (res s1))%R.
            - apply Rinv_0_lt_compat; auto.
            - rewrite Rmult_assoc, Rinv_r, Rmult_1_r by lra. exact Er. }
          assert (improve_ratio_threshold P * min_approx_improve P <=
                  improve_ratio_threshold P * approx_improve (res s1))%R
            by (apply Rmult_le_compat_l; auto).
          lra.
  Qed.

  Lemma solve_decrease fuel pfuel vars0 w s : length vars0 = n_nlp E ->
    (0 <= improve_ratio_threshold P)%R -> (/ 10 ^ 12 <= min_approx_improve P)%R ->
    solve P E fuel pfuel vars0 w = Ok s ->
    forall a b, In (EvAccept a b) (trace s) ->
      (a - b >= improve_ratio_threshold P * min_approx_improve P)%R.
  Proof.
    intros Hl Hthr Hmin Hs. apply solve_inv_eq in Hs as (s1 & Hp & ->).
    assert (Hm : decr s1).
    { revert Hp. apply penalty_inv.
      - intros s p c t [Hc Hm]; split; auto.
      - intros s st [Hc Hm]; split; auto.
      - intros s w' [Hc Hm]; split; auto.
      - intros s [Hc Hm] _; split; auto. intros a b [Hx|Hin]; [discriminate|]. apply Hm; exact Hin.
      - intros; apply decr_body; auto.
      - intros s s' [Hc Hm] _ Ha. split; [eapply coherent_adjust; eauto|].
        apply adjust_trace in Ha as (v & b & a & Htr & _). rewrite Htr.
        intros a' b' [Hx|Hin]; [discriminate|]. apply Hm; exact Hin.
      - split; [apply coherent_init; auto|]. cbn. intros a b []. }
    destruct Hm as [_ Hm]. cbn. destruct (status_eqb (status s1) kRunning); exact Hm.
  Qed.

  (** ** Termination (C04) *)
  Lemma nmax_scale (k x y : R) : (0 <= k)%R -> nmax (k * x)%R (k * y)%R = (k * nmax x y)%R.
  Proof. intros Hk. rewrite !nmax_R. rewrite RmaxRmult; auto. Qed.

  Lemma vmaxc_scale k l m : (0 <= k)%R -> vmaxc l = Some m -> vmaxc (vscale k l) = Some (k * m)%R.
  Proof.
    intros Hk. destruct l as [|x l]; cbn; [discriminate|]. intros [= <-]. f_equal.
    revert x; induction l as [|y l IH]; intros x; cbn; [reflexivity|].
    rnum. rewrite nmax_scale by auto. apply IH.
  Qed.

  Lemma vmaxc_repeat (b : R) n : (0 < n)%nat -> vmaxc (repeat b n) = Some b.
  Proof.
    destruct n as [|n]; [lia|]. intros _. cbn. f_equal.
    induction n as [|n IH]; cbn; auto. rewrite nmax_R, Rmax_left by lra. exact IH.
  Qed.

  Definition boxed (s : sst) : Prop := p_box s = box_size (res s).

  Lemma body_box f s : boxed s ->
    match tr_body P E f s with
    | TrReturn s' => boxed s' /\ length (box_size (res s')) = length (box_size (res s))
    | TrContinue f' s' => boxed s' /\
        (box_size (res s') = vscale (trust_shrink_ratio P) (box_size (res s)) /\
           (f' = f \/ f' = (f + 1)%Z /\ (f' < max_qp_solver_failures P)%Z) \/
         box_size (res s') = repeat (min_trust_box_size P) (n_nlp E) /\
           f' = (f + 1)%Z /\ f' = max_qp_solver_failures P)
    end.
  Proof.
    intros Hb. unfold boxed in *. unfold tr_body. set (s0 := set_res s _).
    destruct (solveQPProblem E s0) as [s1 st] eqn:Eq.
    assert (H1 : p_box s1 = p_box s /\ box_size (res s1) = box_size (res s)).
    { revert Eq. unfold solveQPProblem. destruct (qp_solve E (world s0)) as [w [x|]].
      - cbn. destruct (callbacks E w _). intros [= <- _]. auto.
      - cbn. intros [= <- _]. auto. }
    destruct H1 as [Hp1 Hb1].
    assert (Hfail : match (if (f + 1 <? max_qp_solver_failures P)%Z
             then TrContinue (f + 1) (scale_box E (set_status s1 st) (trust_shrink_ratio P))
             else if (f + 1 =? max_qp_solver_failures P)%Z
             then TrContinue (f + 1) (min_box P E (set_status s1 st))
             else TrReturn (set_status s1 st)) with
       | TrReturn s' => p_box s' = box_size (res s') /\ length (box_size (res s')) = length (box_size (res s))
       | TrContinue f' s' => p_box s' = box_size (res s') /\
          (box_size (res s') = vscale (trust_shrink_ratio P) (box_size (res s)) /\
             (f' = f \/ f' = (f + 1)%Z /\ (f' < max_qp_solver_failures P)%Z) \/
           box_size (res s') = repeat (min_trust_box_size P) (n_nlp E) /\
             f' = (f + 1)%Z /\ f' = max_qp_solver_failures P) end).
    { destruct (f + 1 <? max_qp_solver_failures P)%Z eqn:E1.
      - apply Z.ltb_lt in E1. cbn. split; auto. left. rewrite Hp1, Hb. split; auto.
      - destruct (f + 1 =? max_qp_solver_failures P)%Z eqn:E2.
        + apply Z.eqb_eq in E2. cbn. split; auto.
        + cbn. rewrite Hp1, Hb1. auto. }
    destruct st; try exact Hfail.
    - cbn [res set_status]. destruct (nltb _ (min_approx_improve P)); [cbn; rewrite Hp1, Hb1; auto|].
      destruct (nltb _ (min_approx_improve_frac P)); [cbn; rewrite Hp1, Hb1; auto|].
      destruct (_ || _).
      + cbn. split; auto. left. rewrite Hp1, Hb. split; auto.
      + cbn. split; auto. unfold vscale. rewrite map_length, Hp1, Hb. reflexivity.
    - cbn. rewrite Hp1, Hb1. auto.
  Qed.

  Hypothesis Hk0 : (0 <= trust_shrink_ratio P)%R.
  Hypothesis Hk1 : (trust_shrink_ratio P < 1)%R.
  Hypothesis Hmin : (0 < min_trust_box_size P)%R.
  Hypothesis Hn : (0 < n_nlp E)%nat.

  Lemma tr_loop_terminates_late N f s m : boxed s -> vmaxc (box_size (res s)) = Some m ->
    (max_qp_solver_failures P <= f)%Z ->
    (m * trust_shrink_ratio P ^ N < min_trust_box_size P)%R ->
    exists s', tr_loop P E N f s = Ok s' /\ boxed s' /\ box_size (res s') <> [].
  Proof.
    revert f s m; induction N as [|N IH]; intros f s m Hb Hm Hf Hlt; cbn [tr_loop]; rewrite Hm; rnum.
    - destruct (Rleb_spec (min_trust_box_size P) m) as [Hle|Hle].
      + cbn [pow] in Hlt. lra.
      + exists s. split; auto. split; auto. intros Hx. rewrite Hx in Hm. discriminate.
    - destruct (Rleb_spec (min_trust_box_size P) m) as [Hle|Hle].
      + pose proof (body_box f s Hb) as Hbb.
        destruct (tr_body P E f s) as [f2 s2|s2].
        * destruct Hbb as (Hb2 & [(Hbx & Hff)|(Hbx & -> & Hff)]); [|lia].
          apply (IH f2 s2 (trust_shrink_ratio P * m)%R); auto.
          -- rewrite Hbx. apply vmaxc_scale; auto.
          -- lia.
          -- cbn [pow] in Hlt. lra.
        * exists s2. split; auto. destruct Hbb as [Hb2 Hl2]. split; auto.
          intros Hx. rewrite Hx in Hl2. destruct (box_size (res s)); [discriminate Hm|discriminate Hl2].
      + exists s. split; auto. split; auto. intros Hx. rewrite Hx in Hm. discriminate.
  Qed.

  Lemma tr_loop_terminates N f s m : boxed s -> vmaxc (box_size (res s)) = Some m ->
    (m * trust_shrink_ratio P ^ N < min_trust_box_size P)%R ->
    exists s', tr_loop P E (N + 1) f s = Ok s' /\ boxed s' /\ box_size (res s') <> [].
  Proof.
    revert f s m; induction N as [|N IH]; intros f s m Hb Hm Hlt; cbn [tr_loop Nat.add]; rewrite Hm; rnum.
    - destruct (Rleb_spec (min_trust_box_size P) m) as [Hle|Hle]; [cbn [pow] in Hlt; lra|].
      exists s. split; auto. split; auto. intros Hx. rewrite Hx in Hm. discriminate.
    - destruct (Rleb_spec (min_trust_box_size P) m) as [Hle|Hle].
      + pose proof (body_box f s Hb) as Hbb.
        destruct (tr_body P E f s) as [f2 s2|s2].
        * destruct Hbb as (Hb2 & [(Hbx & Hff)|(Hbx & -> & Hff)]).
          -- apply (IH f2 s2 (trust_shrink_ratio P * m)%R); auto.
             ++ rewrite Hbx. apply vmaxc_scale; auto.
             ++ cbn [pow] in Hlt. lra.
          -- destruct (tr_loop_terminates_late 1 (f + 1) s2 (min_trust_box_size P)) as (s3 & H3 & Hb3); auto.
             ++ rewrite Hbx. apply vmaxc_repeat; auto.
             ++ lia.
             ++ cbn [pow]. rewrite Rmult_1_r. nra.
             ++ exists s3. split; [|exact Hb3]. eapply tr_loop_mono; [|exact H3]. lia.
        * exists s2. split; auto. destruct Hbb as [Hb2 Hl2]. split; auto.
          intros Hx. rewrite Hx in Hl2. destruct (box_size (res s)); [discriminate Hm|discriminate Hl2].
      + exists s. split; auto. split; auto. intros Hx. rewrite Hx in Hm. discriminate.
  Qed.

  Lemma shrink_small m : exists N, (m * trust_shrink_ratio P ^ N < min_trust_box_size P)%R.
  Proof.
    destruct (Rle_lt_dec m 0) as [Hm|Hm].
    - exists 0%nat. cbn. lra.
    - assert (Habs : (Rabs (trust_shrink_ratio P) < 1)%R) by (rewrite Rabs_pos_eq; lra).
      destruct (pow_lt_1_zero _ Habs (min_trust_box_size P / m)%R) as [N HN].
      + apply Rdiv_lt_0_compat; auto.
      + exists N. specialize (HN N (le_n _)).
        rewrite Rabs_pos_eq in HN by (apply pow_le; auto).
        apply (Rmult_lt_compat_l m) in HN; auto.
        replace (m * (min_trust_box_size P / m))%R with (min_trust_box_size P) in HN by (field; lra).
        exact HN.
  Qed.

  Definition good (s : sst) : Prop := boxed s /\ box_size (res s) <> [].

  Lemma good_max s : good s -> exists m, vmaxc (box_size (res s)) = Some m.
  Proof. intros [_ Hb]. destruct (box_size (res s)); [congruence|]. cbn. eauto. Qed.

  Lemma run_terminates s : good s -> exists K s', runTrustRegionLoop P E K s = Ok s' /\ good s'.
  Proof.
    intros Hg. destruct (good_max s Hg) as [m Hm]. destruct (shrink_small m) as [N HN].
    exists (N + 1)%nat. unfold runTrustRegionLoop.
    set (s0 := set_res s _).
    destruct (tr_loop_terminates N 0 s0 m) as (s' & Hs & Hb & Hx); auto.
    - apply Hg.
    - exists s'. split; [exact Hs|split; auto].
  Qed.

  Lemma step_terminates s : good s -> exists K s' b, stepSQPSolver P E K s = Ok (s', b) /\ good s'.
  Proof.
    intros Hg. unfold stepSQPSolver. set (s1 := emit _ _).
    destruct (run_terminates s1) as (K & s2 & Hr & Hg2); [exact Hg|].
    exists K. rewrite Hr. cbn [obind].
    destruct (status_eqb (status s2) kConverged); [eauto|].
    destruct (good_max s2 Hg2) as [m Hm]. rewrite Hm.
    destruct (nltb m (min_trust_box_size P)); eauto.
  Qed.

  Lemma convex_terminates k s : good s -> exists K s', convex_loop P E K k s = Ok s' /\ good s'.
  Proof.
    revert s; induction k as [|k IH]; intros s Hg; cbn [convex_loop].
    - exists 0%nat, s. auto.
    - destruct (clock E (world s)) as [w el].
      destruct (nltb (max_time P) el); [exists 0%nat; eauto|].
      destruct (_ >=? _)%Z; [exists 0%nat; eauto|].
      destruct (step_terminates (set_world s w)) as (K1 & s1 & b & H1 & Hg1); [exact Hg|].
      destruct b.
      + exists K1. rewrite H1. cbn [obind]. eauto.
      + destruct (IH s1 Hg1) as (K2 & s2 & H2 & Hg2).
        exists (Nat.max K1 K2). rewrite (step_mono P E K1 (Nat.max K1 K2) _ _ (Nat.le_max_l _ _) H1). cbn [obind].
        rewrite (convex_mono P E K2 (Nat.max K1 K2) _ _ _ (Nat.le_max_r _ _) H2). eauto.
  Qed.

  (** Sizes reported by the problem: the violation vector has one entry per constraint. *)
  Definition sized (s : sst) : Prop :=
    length (e_viols (best (res s))) = n_cnt E /\ length (merit_coeffs (res s)) = n_cnt E.
  Hypothesis Hsize : forall x, length (exact_viols E x) = n_cnt E.

  Lemma sized_body f s : coherent E s -> sized s ->
    match tr_body P E f s with TrReturn s' => sized s' | TrContinue _ s' => sized s' end.
  Proof.
    intros Hc [Hv Hm].
    assert (Hmer : match tr_body P E f s with TrReturn s' => merit_coeffs (res s') = merit_coeffs (res s)
                   | TrContinue _ s' => merit_coeffs (res s') = merit_coeffs (res s) end).
    { unfold tr_body. set (s0 := set_res s _).
      destruct (solveQPProblem E s0) as [s1 st] eqn:Eq. apply solveQP_spec in Eq; [|exact Hc].
      destruct Eq as (_ & _ & Hmm & _).
      cbn [res set_status].
      destruct st; repeat match goal with |- context [if ?b then _ else _] => destruct b end; exact Hmm. }
    pose proof (coherent_body P E f s Hc) as Hcb.
    destruct (tr_body P E f s); destruct Hcb as (_ & (Hb1 & _) & _); split; rewrite ?Hb1, ?Hmer; auto.
  Qed.

  Lemma sized_convex fuel k s s' : coherent E s /\ sized s -> convex_loop P E fuel k s = Ok s' ->
    coherent E s' /\ sized s'.
  Proof.
    apply (convex_inv P E (fun s => coherent E s /\ sized s)); auto.
    intros f s0 m [Hc Hs] _ _.
    pose proof (coherent_body P E f s0 Hc). pose proof (sized_body f s0 Hc Hs).
    destruct (tr_body P E f s0); auto.
  Qed.


  Lemma adjust_ok s : good s -> coherent E s -> sized s ->
    exists s', adjustPenalty P E s = Ok s' /\ good s' /\ coherent E s' /\ sized s'.
  Proof.
    intros [Hb Hx] Hc [Hv Hm].
    assert (Hl : (length (e_viols (best (res s))) =? length (merit_coeffs (res s)))%nat = true)
      by (apply Nat.eqb_eq; congruence).
    destruct (adjustPenalty P E s) as [s'| |] eqn:Ea.
    - exists s'. split; auto. split; [|split].
      + revert Ea. unfold adjustPenalty. destruct (_ && _); [discriminate|]. cbn.
        destruct (box_size (res s)) as [|b0 bs]; [discriminate|]. intros [= <-]. split; cbn.
        * reflexivity.
        * destruct (n_nlp E); [lia|]. discriminate.
      + eapply coherent_adjust; eauto.
      + revert Ea. unfold adjustPenalty. rewrite Hl. destruct (_ && _); [discriminate|]. cbn.
        destruct (box_size (res s)) as [|b0 bs]; [discriminate|]. intros [= <-]. split; cbn; auto.
        destruct (inflate_constraints_individually P).
        * rewrite inflate_length; auto. congruence.
        * rewrite map_length; auto.
    - exfalso. revert Ea. unfold adjustPenalty. rewrite Hl, andb_false_r. cbn.
      destruct (box_size (res s)); [congruence|discriminate].
    - exfalso. revert Ea. unfold adjustPenalty. rewrite Hl, andb_false_r. cbn.
      destruct (box_size (res s)); [congruence|discriminate].
  Qed.

  Lemma penalty_terminates n i s : good s -> coherent E s -> sized s ->
    (max_merit_coeff_increases P <= IZR (i + Z.of_nat n))%R ->
    exists K s', penalty_loop P E K n i s = Ok s'.
  Proof.
    revert i s; induction n as [|n IH]; intros i s Hg Hc Hs Hmax; cbn [penalty_loop]; rnum.
    - destruct (Rltb_spec (IZR i) (max_merit_coeff_increases P)) as [Hlt|Hlt].
      + replace (i + Z.of_nat 0)%Z with i in Hmax by lia. lra.
      + exists 0%nat. eauto.
    - destruct (Rltb_spec (IZR i) (max_merit_coeff_increases P)) as [Hlt|Hlt]; [|exists 0%nat; eauto].
      set (s0 := set_res s _).
      destruct (convex_terminates 99 s0) as (K1 & s1 & H1 & Hg1); [exact Hg|].
      assert (Hcs1 : coherent E s1 /\ sized s1).
      { eapply sized_convex; [|exact H1]. split; [exact Hc|exact Hs]. }
      destruct (verifySQPSolverConvergence P s1) eqn:Ev.
      { exists K1. rewrite H1. cbn [obind]. rewrite Ev. eauto. }
      destruct (status_eqb (status s1) kIterationLimit || status_eqb (status s1) kTimeLimit) eqn:Eo.
      { exists K1. rewrite H1. cbn [obind]. rewrite Ev, Eo. eauto. }
      destruct (adjust_ok (set_status s1 kRunning)) as (s2 & H2 & Hg2 & Hc2 & Hs2);
        [exact Hg1|apply Hcs1|apply Hcs1|].
      destruct (IH (i + 1)%Z s2 Hg2 Hc2 Hs2) as (K2 & s3 & H3).
      { replace (i + 1 + Z.of_nat n)%Z with (i + Z.of_nat (S n))%Z by lia. exact Hmax. }
      exists (Nat.max K1 K2).
      rewrite (convex_mono P E K1 (Nat.max K1 K2) _ _ _ (Nat.le_max_l _ _) H1). cbn [obind].
      rewrite Ev, Eo, H2. cbn [obind].
      rewrite (penalty_mono P E K2 (Nat.max K1 K2) n n _ _ _ (Nat.le_max_r _ _) (le_n _) H3). eauto.
  Qed.

  Lemma solve_terminates vars0 w : length vars0 = n_nlp E ->
    exists K, forall fuel pfuel, (K <= fuel)%nat -> (K <= pfuel)%nat ->
      exists s, solve P E fuel pfuel vars0 w = Ok s /\ solve P E K K vars0 w = Ok s.
  Proof.
    intros Hl.
    set (n := Z.to_nat (up (max_merit_coeff_increases P))).
    destruct (penalty_terminates n 0 (init P E vars0 w)) as (K & s & Hs).
    - split; [reflexivity|]. cbn. destruct (n_nlp E); [lia|discriminate].
    - apply coherent_init; auto.
    - split; cbn; auto. apply repeat_length.
    - destruct (archimed (max_merit_coeff_increases P)) as [Hup _].
      apply Rle_trans with (IZR (up (max_merit_coeff_increases P))); [lra|]. apply IZR_le. unfold n. lia.
    - exists (Nat.max K n). intros fuel pfuel Hf Hpf.
      unfold solve.
      rewrite (penalty_mono P E K fuel n pfuel 0 _ s) by (lia || exact Hs).
      rewrite (penalty_mono P E K (Nat.max K n) n (Nat.max K n) 0 _ s) by (lia || exact Hs).
      cbn [obind]. eauto.
  Qed.

  Lemma run_qp_bound N fuel s s' m : good s -> vmaxc (box_size (res s)) = Some m ->
    (m * trust_shrink_ratio P ^ N < min_trust_box_size P)%R ->
    runTrustRegionLoop P E fuel s = Ok s' ->
    exists ev, trace s' = ev ++ trace s /\ (qp_solves ev <= N + 1)%nat.
  Proof.
    intros Hg Hm HN Hr. unfold runTrustRegionLoop in Hr. set (s0 := set_res s _) in *.
    destruct (tr_loop_terminates N 0 s0 m) as (s2 & Hs & _); auto.
    { apply Hg. }
    assert (s2 = s').
    { pose proof (tr_loop_mono P E fuel (Nat.max fuel (N + 1)) _ _ _ (Nat.le_max_l _ _) Hr) as A.
      pose proof (tr_loop_mono P E (N + 1) (Nat.max fuel (N + 1)) _ _ _ (Nat.le_max_r _ _) Hs) as B.
      congruence. }
    subst s2. apply tr_loop_qp_count in Hs as (ev & Htr & Hq & _).
    exists ev. rewrite <- count_qp_spec. auto.
  Qed.
End RSec.

(** ** Penalty coefficients (C08) *)
Section Pen.
  Context {W : Type}.
  Variable P : sqp_params R.
  Variable E : env R W.
  Notation sst := (sst R W).

  Definition pen_rule (v b a : list R) : Prop :=
    length a = length b /\
    (inflate_constraints_individually P = true -> length v = length b) /\
    (exists x, In x v /\ (cnt_tolerance P <= x)%R) /\
    forall i, (i < length b)%nat ->
      coeff_rule (inflate_constraints_individually P) (cnt_tolerance P) (merit_coeff_increase_ratio P)
        (nth i v 0%R) (nth i b 0%R) (nth i a 0%R).

  Lemma inflate_nth v c i : length v = length c -> (i < length c)%nat ->
    coeff_rule true (cnt_tolerance P) (merit_coeff_increase_ratio P) (nth i v 0%R) (nth i c 0%R)
      (nth i (inflate P v c) 0%R).
  Proof.
    revert v i; induction c as [|y c IH]; intros [|x v] i Hl Hi; cbn in *; try lia.
    destruct i as [|i]; cbn.
    - rnum. destruct (Rltb_spec (cnt_tolerance P) x); split; intros; try lra.
    - apply IH; lia.
  Qed.

  Lemma fold_nmax_R l x c : (c <= fold_left nmax l x)%R -> exists y, In y (x :: l) /\ (c <= y)%R.
  Proof.
    revert x; induction l as [|y l IH]; intros x; cbn [fold_left]; intros Hc.
    - exists x; split; [left; auto|auto].
    - apply IH in Hc as (z & [Hz|Hz] & Hcz).
      + subst z. rewrite nmax_R in Hcz. unfold Rmax in Hcz. destruct (Rle_dec x y).
        * exists y. split; [right; left; auto|auto].
        * exists x. split; [left; auto|auto].
      + exists z. split; [right; right; auto|auto].
  Qed.

  Lemma not_converged s : verifySQPSolverConvergence P (s : sst) = false ->
    exists x, In x (e_viols (best (res s))) /\ (cnt_tolerance P <= x)%R.
  Proof.
    unfold verifySQPSolverConvergence. destruct (e_viols (best (res s))) as [|x l]; cbn; [discriminate|].
    rnum. intros Hf. rcmp. apply fold_nmax_R in Hf. exact Hf.
  Qed.

  Definition pen_ok (s : sst) : Prop :=
    forall v b a, In (EvPenalty v b a) (trace s) -> pen_rule v b a.

  Lemma adjust_event s s' : adjustPenalty P E (s : sst) = Ok s' ->
    exists a, trace s' = EvPenalty (e_viols (best (res s))) (merit_coeffs (res s)) a :: trace s /\
      merit_coeffs (res s') = a /\
      (inflate_constraints_individually P = true ->
         length (e_viols (best (res s))) = length (merit_coeffs (res s)) /\
         a = inflate P (e_viols (best (res s))) (merit_coeffs (res s))) /\
      (inflate_constraints_individually P = false ->
         a = map (fun c => c * merit_coeff_increase_ratio P)%R (merit_coeffs (res s))).
  Proof.
    unfold adjustPenalty. destruct (inflate_constraints_individually P); cbn.
    - destruct (Nat.eqb_spec (length (e_viols (best (res s)))) (length (merit_coeffs (res s)))) as [Hl|Hl]; cbn; [|discriminate].
      destruct (box_size (res s)); [discriminate|]. intros [= <-]. cbn. eexists. repeat split; auto. discriminate.
    - destruct (box_size (res s)); [discriminate|]. intros [= <-]. cbn. eexists. repeat split; auto; discriminate.
  Qed.

  Lemma adjust_rule s s' : verifySQPSolverConvergence P (s : sst) = false -> adjustPenalty P E s = Ok s' ->
    exists v b a, trace s' = EvPenalty v b a :: trace s /\ pen_rule v b a.
  Proof.
    intros Hv Ha. apply adjust_event in Ha as (a & Htr & _ & Hi1 & Hi2).
    exists (e_viols (best (res s))), (merit_coeffs (res s)), a. split; auto.
    unfold pen_rule. destruct (inflate_constraints_individually P) eqn:Ei.
    - destruct (Hi1 eq_refl) as [Hl ->]. repeat split; auto.
      + apply inflate_length; auto.
      + apply not_converged; auto.
      + apply inflate_nth; auto.
      + apply inflate_nth; auto.
    - rewrite (Hi2 eq_refl). repeat split; auto; try discriminate.
      + apply map_length.
      + apply not_converged; auto.
      + intros i Hi. unfold coeff_rule.
        rewrite nth_indep with (d' := (0 * merit_coeff_increase_ratio P)%R) by (rewrite map_length; auto).
        apply (map_nth (fun c => c * merit_coeff_increase_ratio P)%R).
  Qed.

  Lemma body_no_pen f s : pen_ok s ->
    match tr_body P E f s with TrReturn s' => pen_ok s' | TrContinue _ s' => pen_ok s' end.
  Proof.
    intros Hp.
    assert (Hall : forall s', (tr_body P E f s = TrReturn s' \/ exists f', tr_body P E f s = TrContinue f' s') -> pen_ok s').
    { intros s' Hex. apply body_events in Hex as (_ & ev & Htr & _ & _ & Hnp).
      intros v b a Hin. rewrite Htr in Hin. apply in_app_or in Hin as [Hin|Hin]; [exfalso; eapply Hnp; eauto|].
      apply Hp; auto. }
    destruct (tr_body P E f s) as [f' s'|s']; apply Hall; eauto.
  Qed.

  Lemma solve_penalty_rule fuel pfuel vars0 w s : solve P E fuel pfuel vars0 w = Ok s ->
    forall v b a, In (EvPenalty v b a) (trace s) -> pen_rule v b a.
  Proof.
    intros Hs. apply solve_inv_eq in Hs as (s1 & Hp & ->).
    assert (Hm : pen_ok s1).
    { revert Hp. apply penalty_inv; auto.
      - intros s0 Hp _ v b a [Hx|Hin]; [discriminate|]. apply Hp; exact Hin.
      - intros; apply body_no_pen; auto.
      - intros s0 s' Hp Hv Ha. apply adjust_rule in Ha as (v & b & a & Htr & Hr); auto.
        intros v' b' a' Hin. rewrite Htr in Hin. destruct Hin as [Hx|Hin]; [|apply Hp; exact Hin].
        injection Hx as <- <- <-. exact Hr.
      - intros v b a []. }
    cbn. destruct (status_eqb (status s1) kRunning); exact Hm.
  Qed.

  Lemma penalty_changes_app (a b : list (event R)) :
    penalty_changes (a ++ b) = (penalty_changes a + penalty_changes b)%nat.
  Proof. induction a as [|[] a IH]; cbn; auto. Qed.
  Lemma no_pen_changes (ev : list (event R)) : (forall v b a, ~ In (EvPenalty v b a) ev) -> penalty_changes ev = 0%nat.
  Proof.
    induction ev as [|e ev IH]; intros Hn; cbn; auto.
    destruct e; try (apply IH; intros v b a Hin; apply (Hn v b a); right; exact Hin).
    exfalso. eapply Hn. left. reflexivity.
  Qed.

  Lemma convex_no_pen fuel k n s s' : penalty_changes (trace s) = n -> convex_loop P E fuel k s = Ok s' ->
    penalty_changes (trace s') = n.
  Proof.
    apply (convex_inv P E (fun s => penalty_changes (trace s) = n)); auto.
    intros f s0 m Hc _ _.
    assert (Hall : forall s', (tr_body P E f s0 = TrReturn s' \/ exists f', tr_body P E f s0 = TrContinue f' s') ->
      penalty_changes (trace s') = n).
    { intros s2 Hex. apply body_events in Hex as (_ & ev & Htr & _ & _ & Hnp).
      rewrite Htr, penalty_changes_app, (no_pen_changes ev Hnp). exact Hc. }
    destruct (tr_body P E f s0) as [f' s2|s2]; apply Hall; eauto.
  Qed.

  Lemma penalty_count fuel pfuel i s s' : (0 <= i)%Z -> penalty_changes (trace s) = Z.to_nat i ->
    (i = 0%Z \/ (IZR (i - 1) < max_merit_coeff_increases P)%R) ->
    penalty_loop P E fuel pfuel i s = Ok s' ->
    penalty_changes (trace s') = 0%nat \/
    (INR (penalty_changes (trace s') - 1) < max_merit_coeff_increases P)%R.
  Proof.
    assert (Hfin : forall i n, (0 <= i)%Z -> n = Z.to_nat i ->
      (i = 0%Z \/ (IZR (i - 1) < max_merit_coeff_increases P)%R) ->
      n = 0%nat \/ (INR (n - 1) < max_merit_coeff_increases P)%R).
    { intros j n Hj -> [->|Hlt]; [left; reflexivity|].
      destruct (Z.eq_dec j 0) as [->|Hne]; [left; reflexivity|]. right.
      rewrite INR_IZR_INZ. replace (Z.of_nat (Z.to_nat j - 1)) with (j - 1)%Z by lia. exact Hlt. }
    revert i s; induction pfuel as [|pfuel IH]; intros i s Hi Hc Hprev; cbn [penalty_loop]; rnum;
      destruct (Rltb_spec (IZR i) (max_merit_coeff_increases P)) as [Hlt|Hlt]; try discriminate;
      try (intros [= <-]; eapply Hfin; eauto).
    destruct (convex_loop P E fuel 99 _) as [s2| |] eqn:Ec; cbn [obind]; try discriminate.
    apply convex_no_pen with (n := Z.to_nat i) in Ec; [|exact Hc].
    destruct (verifySQPSolverConvergence P s2); [intros [= <-]; eapply Hfin; eauto|].
    destruct (_ || _); [intros [= <-]; eapply Hfin; eauto|].
    destruct (adjustPenalty P E (set_status s2 kRunning)) as [s3| |] eqn:Ea; cbn [obind]; try discriminate.
    apply IH; [lia| |].
    - apply adjust_trace in Ea as (v & b & a & -> & _). cbn. rewrite Ec. lia.
    - right. replace (i + 1 - 1)%Z with i by lia. exact Hlt.
  Qed.

  Lemma solve_penalty_count fuel pfuel vars0 w s : solve P E fuel pfuel vars0 w = Ok s ->
    penalty_changes (trace s) = 0%nat \/
    (INR (penalty_changes (trace s) - 1) < max_merit_coeff_increases P)%R.
  Proof.
    intros Hs. apply solve_inv_eq in Hs as (s1 & Hp & ->).
    apply penalty_count in Hp; [|lia|reflexivity|auto].
    cbn. destruct (status_eqb (status s1) kRunning); exact Hp.
  Qed.

  (** Coefficients never decrease (ratio at least one, non-negative initial coefficient). *)
  Definition mono_ok (s : sst) : Prop :=
    Forall (fun c => (0 <= c)%R) (merit_coeffs (res s)) /\
    forall v b a, In (EvPenalty v b a) (trace s) -> Forall2 Rle b a.

  Lemma inflate_mono v c : (1 <= merit_coeff_increase_ratio P)%R -> Forall (fun c => (0 <= c)%R) c ->
    Forall2 Rle c (inflate P v c) /\ Forall (fun c => (0 <= c)%R) (inflate P v c).
  Proof.
    intros Hr Hc. revert v; induction Hc as [|y c Hy Hc IH]; intros [|x v]; cbn.
    - auto.
    - auto.
    - split.
      + constructor; [lra|]. clear - c. induction c; constructor; auto. lra.
      + constructor; auto.
    - destruct (IH v) as [I1 I2]. rnum. destruct (Rltb_spec (cnt_tolerance P) x).
      + split; constructor; auto; nra.
      + split; constructor; auto; lra.
  Qed.

  Lemma body_merit f s :
    match tr_body P E f s with TrReturn s' => merit_coeffs (res s') = merit_coeffs (res s)
    | TrContinue _ s' => merit_coeffs (res s') = merit_coeffs (res s) end.
  Proof.
    unfold tr_body. set (s0 := set_res s _).
    destruct (solveQPProblem E s0) as [s1 st] eqn:Eq.
    assert (Hm : merit_coeffs (res s1) = merit_coeffs (res s)).
    { revert Eq. unfold solveQPProblem. destruct (qp_solve E (world s0)) as [w [x|]].
      - cbn. destruct (callbacks E w _). intros [= <- _]. auto.
      - cbn. intros [= <- _]. auto. }
    cbn [res set_status].
    destruct st; repeat match goal with |- context [if ?b then _ else _] => destruct b end; exact Hm.
  Qed.

  Lemma solve_penalty_mono fuel pfuel vars0 w s :
    (1 <= merit_coeff_increase_ratio P)%R -> (0 <= initial_merit_error_coeff P)%R ->
    solve P E fuel pfuel vars0 w = Ok s ->
    forall v b a, In (EvPenalty v b a) (trace s) -> Forall2 Rle b a.
  Proof.
    intros Hr H0 Hs. apply solve_inv_eq in Hs as (s1 & Hp & ->).
    assert (Hm : mono_ok s1).
    { revert Hp. apply penalty_inv; auto.
      - intros s0 [Hc Hp] _. split; auto. intros v b a [Hx|Hin]; [discriminate|]. eapply Hp; exact Hin.
      - intros f s0 m [Hc Hp] _ _. pose proof (body_merit f s0) as Hbm.
        assert (Hall : forall s', (tr_body P E f s0 = TrReturn s' \/ exists f', tr_body P E f s0 = TrContinue f' s') ->
           forall v b a, In (EvPenalty v b a) (trace s') -> Forall2 Rle b a).
        { intros s' Hex v b a Hin. apply body_events in Hex as (_ & ev & Htr & _ & _ & Hnp).
          rewrite Htr in Hin. apply in_app_or in Hin as [Hin|Hin]; [exfalso; eapply Hnp; eauto|]. eapply Hp; eauto. }
        destruct (tr_body P E f s0) as [f' s'|s']; (split; [rewrite Hbm; auto|apply Hall; eauto]).
      - intros s0 s' [Hc Hp] _ Ha. apply adjust_event in Ha as (a & Htr & Hm & Hi1 & Hi2).
        assert (Ha : Forall2 Rle (merit_coeffs (res s0)) a /\ Forall (fun c => (0 <= c)%R) a).
        { destruct (inflate_constraints_individually P) eqn:Ei.
          - destruct (Hi1 eq_refl) as [_ ->]. apply inflate_mono; auto.
          - rewrite (Hi2 eq_refl). clear - Hc Hr. induction Hc as [|y c Hy Hc IH]; cbn; [auto|].
            destruct IH. split; constructor; auto; nra. }
        split; [rewrite Hm; apply Ha|].
        intros v b a' Hin. rewrite Htr in Hin. destruct Hin as [Hx|Hin]; [|eapply Hp; exact Hin].
        injection Hx as <- <- <-. apply Ha.
      - split; [|intros v b a []]. cbn. clear - H0. induction (n_cnt E); cbn; constructor; auto. }
    destruct Hm as [_ Hm]. cbn. destruct (status_eqb (status s1) kRunning); exact Hm.
  Qed.
End Pen.

(** ** Statements in the form used by the property file *)
Lemma solve_converged_feasible_vars :
  forall (T : Type) (NT : Num T) (OL : OrdLaws T) (W : Type) (P : sqp_params T) (E : env T W)
         fuel pfuel vars0 w s,
    length vars0 = n_nlp E ->
    solve P E fuel pfuel vars0 w = Ok s -> status s = kConverged ->
    p_vars s = firstn (n_nlp E) (e_vars (best (res s))) /\
    Forall (fun v => nltb v (cnt_tolerance P) = true) (exact_viols E (p_vars s)).
Proof.
  intros T NT OL W P E fuel pfuel vars0 w s Hl Hs Hc. split.
  - eapply solve_coherent; eauto.
  - eapply solve_converged_feasible; eauto.
Qed.

Lemma tr_loop_bounded :
  forall (W : Type) (P : sqp_params R) (E : env R W),
    (0 <= trust_shrink_ratio P)%R -> (trust_shrink_ratio P < 1)%R -> (0 < min_trust_box_size P)%R ->
    (0 < n_nlp E)%nat ->
    forall N f s m, p_box s = box_size (res s) -> vmaxc (box_size (res s)) = Some m ->
      (m * trust_shrink_ratio P ^ N < min_trust_box_size P)%R ->
      exists s' ev, tr_loop P E (N + 1) f s = Ok s' /\ trace s' = ev ++ trace s /\ (qp_solves ev <= N + 1)%nat.
Proof.
  intros W P E Hk0 Hk1 Hmin Hn N f s m Hb Hm HN.
  destruct (tr_loop_terminates P E Hk0 Hk1 Hmin Hn N f s m Hb Hm HN) as (s' & Hs & _).
  pose proof (tr_loop_qp_count P E _ _ _ _ Hs) as (ev & Htr & Hq & _).
  exists s', ev. rewrite <- count_qp_spec. auto.
Qed.

Lemma solve_convexify_budget_spec :
  forall (T : Type) (NT : Num T) (W : Type) (P : sqp_params T) (E : env T W) fuel pfuel vars0 w s,
    solve P E fuel pfuel vars0 w = Ok s ->
    forall newer older, trace s = newer ++ EvConvexify :: older ->
      (Z.of_nat (qp_solves older) < max_iterations P)%Z.
Proof.
  intros T NT W P E fuel pfuel vars0 w s Hs newer older Htr. rewrite <- count_qp_spec.
  eapply solve_convexify_budget; eauto.
Qed.

Lemma run_qp_bound_spec :
  forall (W : Type) (P : sqp_params R) (E : env R W) N fuel s s' m,
    (0 <= trust_shrink_ratio P)%R -> (trust_shrink_ratio P < 1)%R -> (0 < min_trust_box_size P)%R ->
    (0 < n_nlp E)%nat ->
    p_box s = box_size (res s) -> vmaxc (box_size (res s)) = Some m ->
    (m * trust_shrink_ratio P ^ N < min_trust_box_size P)%R ->
    runTrustRegionLoop P E fuel s = Ok s' ->
    exists ev, trace s' = ev ++ trace s /\ (qp_solves ev <= N + 1)%nat.
Proof.
  intros W P E N fuel s s' m Hk0 Hk1 Hmin Hn Hb Hm HN Hr.
  eapply run_qp_bound; eauto. split; auto. intros Hx. rewrite Hx in Hm. discriminate.
Qed.

Lemma solve_status_set :
  forall (T : Type) (NT : Num T) (W : Type) (P : sqp_params T) (E : env T W) fuel pfuel vars0 w s,
    solve P E fuel pfuel vars0 w = Ok s ->
    status s = kConverged \/ status s = kPenaltyIterationLimit \/
    status s = kIterationLimit \/ status s = kTimeLimit.
Proof. intros T NT W P E fuel pfuel vars0 w s Hs. apply solve_status in Hs. tauto. Qed.

Lemma failing_solver :
  forall (T : Type) (NT : Num T) (W : Type) (P : sqp_params T) (E : env T W),
    (forall w, snd (qp_solve E w) = None) ->
    (forall fuel pfuel vars0 w s, solve P E fuel pfuel vars0 w = Ok s -> e_vars (best (res s)) = vars0) /\
    (forall fuel s s', runTrustRegionLoop P E fuel s = Ok s' ->
       exists ev, trace s' = ev ++ trace s /\
         (Z.of_nat (qp_solves ev) <= Z.max 0 (max_qp_solver_failures P) + 1)%Z).
Proof.
  intros T NT W P E Hf. split.
  - intros fuel pfuel vars0 w s Hs. eapply fail_keeps_best; eauto.
  - intros fuel s s' Hr. unfold runTrustRegionLoop in Hr. apply fail_run_count in Hr as (ev & Htr & Hq); auto.
    exists ev. split; auto. rewrite <- count_qp_spec. rewrite Z.sub_0_r in Hq. exact Hq.
Qed.
