(** * Properties of OSQPEigenSolver and of its use by the trust region solver *)
From Coq Require Import List ZArith Bool Arith Reals Lra Lia.
From Verif Require Import Num NumFacts RSums Common IfoptModel IfoptProofs ExprsModel ExprsProps ModelingModel ModelingSpec KinProofs
  QpModel QpSpec QpProofs QpSlackProofs QpEvalProofs QpProps QpCaseProps OsqpModel.
Import ListNotations.

(** ** What the library is asked to solve (C110), for any kind of numbers *)
Section Asked.
  Context {T : Type} {NT : Num T}.
  (** the data of a QP fits together *)
  Definition data_ok (d : qpd T) : Prop :=
    length (d_hess d) = d_cols d /\ length (d_grad d) = d_cols d /\ length (d_lo d) = length (d_mat d) /\ length (d_hi d) = length (d_mat d).
  (** the library holds the QP [d] with the bounds [lo], [hi]: twice the Hessian (OSQP halves it), the gradient without
      its entries below 1e-7, the matrix, and the bounds cut at 1e30 *)
  Definition asked (d : qpd T) (lo hi : list (option T)) (w : solver T) : Prop :=
    o_hess w = Held (map (map (fun v => nofZ 2 * v)%num) (d_hess d)) /\
    o_grad w = Held (map (fun v => if nabs v <? ndec 1 (-7) then nzero else v)%num (d_grad d)) /\
    o_mat w = Held (d_mat d) /\
    o_bnd w = Held (map (fun b => match b with Some v => nmax v (nopp (ndec 1 30)) | None => nopp (ndec 1 30) end) lo,
                    map (fun b => match b with Some v => nmin v (ndec 1 30) | None => ndec 1 30 end) hi).
  (** the solver calls of one trust region loop, starting with the bounds [lo], [hi] *)
  Inductive answers (d : qpd T) : list (option T) -> list (option T) -> list (event T) -> list (option (solver T)) -> Prop :=
  | ans_nil lo hi : answers d lo hi [] []
  | ans_solve lo hi u r es w ws : (forall s, w = Some s -> asked d lo hi s) -> (w = None -> u = false) ->
      answers d lo hi es ws -> answers d lo hi (ESolve u r :: es) (w :: ws)
  | ans_bounds lo hi lo' hi' es ws : answers d lo' hi' es ws -> answers d lo hi (EBounds true lo' hi' :: es) ws.
  (** the bounds given later have the right size, and the library accepts them *)
  Definition event_ok (d : qpd T) (e : event T) : Prop :=
    match e with ESolve _ _ => True | EBounds ok lo hi => ok = true /\ length lo = length (d_mat d) /\ length hi = length (d_mat d) end.

  Definition kept (d : qpd T) lo hi (s : solver T) : Prop :=
    asked d lo hi s /\ o_nv s = d_cols d /\ o_nc s = length (d_mat d) /\ o_status s <> Uninitialized.
  Lemma rebuild_kept d s : data_ok d -> exists s', rebuild d s = Ok s' /\ kept d (d_lo d) (d_hi d) s'.
  Proof.
    intros (D1 & D2 & D3 & D4). unfold rebuild. unfold update_hess, update_grad, update_mat, update_bnds, osqp_init, osqp_clear.
    cbn [o_ready o_nv o_nc o_hess o_grad o_mat o_bnd o_status fst snd]. rewrite D1, D2, !Nat.eqb_refl. cbn [andb obind snd o_ready o_nv o_nc]. rewrite D3, D4, Nat.eqb_refl. cbn [andb obind snd].
    eexists. split; [reflexivity|]. split; [|split; [reflexivity|split; [reflexivity|cbn; discriminate]]]. repeat split; reflexivity.
  Qed.
  Lemma prepare_kept oks prev d s : data_ok d ->
    (o_status s = Uninitialized \/ (d_cols d, length (d_mat d)) <> prev \/ (o_nv s = fst prev /\ o_nc s = snd prev /\ o_status s <> Uninitialized)) ->
    exists s', prepare oks prev d s = Ok s' /\ kept d (d_lo d) (d_hi d) s'.
  Proof.
    intros D Hs. pose proof D as (D1 & D2 & D3 & D4). destruct oks as [[[k1 k2] k3] k4]. unfold prepare.
    destruct (Nat.eqb_spec (d_cols d) (fst prev)) as [E1|E1]; [|cbn; rewrite orb_true_r; apply rebuild_kept, D].
    destruct (Nat.eqb_spec (length (d_mat d)) (snd prev)) as [E2|E2]; [|cbn; rewrite orb_true_r; apply rebuild_kept, D].
    cbn [andb negb]. rewrite orb_false_r. destruct Hs as [-> | [N|(Hn & Hc & Hu)]]; [apply rebuild_kept, D|destruct prev; cbn in *; congruence|].
    replace (match o_status s with Uninitialized => true | _ => false end) with false by (destruct (o_status s); [congruence|reflexivity|reflexivity]).
    unfold update_hess, update_grad. cbn [o_ready o_nv o_nc o_hess o_grad o_mat o_bnd o_status fst snd].
    replace (length (d_hess d) =? o_nv s) with true by (symmetry; apply Nat.eqb_eq; congruence).
    replace (length (d_grad d) =? o_nv s) with true by (symmetry; apply Nat.eqb_eq; congruence). rewrite !andb_true_r.
    destruct (if o_ready s then k1 else true) eqn:G1; cbn [negb]; [|apply rebuild_kept, D].
    destruct (if o_ready s then k2 else true) eqn:G2; cbn [negb]; [|apply rebuild_kept, D].
    unfold update_mat, update_bnds. cbn [o_ready o_nv o_nc o_hess o_grad o_mat o_bnd o_status fst snd].
    replace (o_nc s =? length (d_mat d)) with true by (symmetry; apply Nat.eqb_eq; congruence).
    replace (o_nv s =? d_cols d) with true by (symmetry; apply Nat.eqb_eq; congruence). cbn [andb obind fst snd].
    destruct (if o_ready s then k3 else true) eqn:G3; cbn [negb]; [|apply rebuild_kept, D]. cbn [o_nc o_ready o_nv].
    replace (length (d_lo d) =? o_nc s) with true by (symmetry; apply Nat.eqb_eq; congruence).
    replace (length (d_hi d) =? o_nc s) with true by (symmetry; apply Nat.eqb_eq; congruence). cbn [andb obind fst snd].
    destruct (if o_ready s then k4 else true) eqn:G4; cbn [negb]; [|apply rebuild_kept, D].
    eexists. split; [reflexivity|]. split; [repeat split; reflexivity|]. cbn. repeat split; try congruence; assumption.
  Qed.
  Lemma solve_kept u r d lo hi s : kept d lo hi s -> exists w ok s', osqp_solve u r s = (w, ok, s') /\ kept d lo hi s' /\
    (forall v, w = Some v -> asked d lo hi v) /\ (w = None -> u = false).
  Proof.
    intros K. pose proof K as ((A1 & A2 & A3 & A4) & Kn & Kc & Ks). unfold osqp_solve. rewrite A1, A2, A3, A4. cbn [is_set andb].
    assert (G : forall st b, st <> Uninitialized -> kept d lo hi {| o_ready := b; o_hess := Held (map (map (fun v => nofZ 2 * v)%num) (d_hess d)); o_grad := Held (map (fun v => if nabs v <? ndec 1 (-7) then nzero else v)%num (d_grad d)); o_mat := Held (d_mat d);
        o_bnd := Held (map (fun b => match b with Some v => nmax v (nopp (ndec 1 30)) | None => nopp (ndec 1 30) end) lo, map (fun b => match b with Some v => nmin v (ndec 1 30) | None => ndec 1 30 end) hi);
        o_nv := o_nv s; o_nc := o_nc s; o_status := st |}).
    { intros st b Hst. repeat split; assumption. }
    destruct (o_ready s || u)%bool eqn:B.
    - eexists _, _, _. split; [reflexivity|]. split; [apply G; destruct r; [exact Ks|discriminate]|]. split; [intros v [= <-]; repeat split; assumption|discriminate].
    - eexists _, _, _. split; [reflexivity|]. split; [apply G; discriminate|]. split; [discriminate|]. intros _. apply orb_false_elim in B. apply B.
  Qed.
  Lemma events_kept d es : Forall (event_ok d) es -> forall lo hi s, kept d lo hi s ->
    exists ws s' lo' hi', run_events es s = Ok (ws, s') /\ answers d lo hi es ws /\ kept d lo' hi' s'.
  Proof.
    induction 1 as [|e es He _ IH]; intros lo hi s K.
    - exists [], s, lo, hi. repeat split; try constructor; apply K.
    - destruct e as [u r|ok l h]; cbn [run_events].
      + destruct (solve_kept u r d lo hi s K) as (w & o & s1 & E & K1 & W1 & W2). rewrite E. destruct (IH lo hi s1 K1) as (ws & s' & lo' & hi' & E' & A & K').
        rewrite E'. cbn [obind fst snd]. exists (w :: ws), s', lo', hi'. split; [reflexivity|]. split; [constructor; assumption|exact K'].
      + destruct He as (-> & L1 & L2). destruct K as (K1 & K2 & K3 & K4). unfold update_bnds. rewrite L1, L2, K3, Nat.eqb_refl. cbn [andb obind fst snd].
        replace (if o_ready s then true else true) with true by (destruct (o_ready s); reflexivity).
        match goal with |- context [run_events es ?s1] => destruct (IH l h s1) as (ws & s' & lo' & hi' & E' & A & K') end.
        { repeat split; cbn; auto; apply K1. }
        rewrite E'. exists ws, s', lo', hi'. split; [reflexivity|]. split; [constructor; exact A|exact K'].
  Qed.
  Lemma run_asked : forall (its : list (qpd T * (bool * bool * bool * bool) * list (event T))) prev (s : solver T),
    Forall (fun it => data_ok (fst (fst it)) /\ Forall (event_ok (fst (fst it))) (snd it)) its ->
    (o_status s = Uninitialized \/ forall it rest, its = it :: rest -> (d_cols (fst (fst it)), length (d_mat (fst (fst it)))) <> prev) ->
    exists outs s', run_iters prev its s = Ok (outs, s') /\
      Forall2 (fun it ws => answers (fst (fst it)) (d_lo (fst (fst it))) (d_hi (fst (fst it))) (snd it) ws) its outs.
  Proof.
    intros its prev s F Hs.
    assert (Hs' : forall it rest, its = it :: rest -> o_status s = Uninitialized \/ (d_cols (fst (fst it)), length (d_mat (fst (fst it)))) <> prev \/
       (o_nv s = fst prev /\ o_nc s = snd prev /\ o_status s <> Uninitialized)).
    { intros it rest E. destruct Hs as [Hs|Hs]; [now left|right; left; eapply Hs, E]. }
    clear Hs. revert prev s Hs'. induction F as [|[[d oks] es] its (D & Fe) F IH]; intros prev s Hs.
    - exists [], s. split; [reflexivity|constructor].
    - cbn [fst snd] in *. cbn [run_iters]. destruct (prepare_kept oks prev d s D (Hs _ _ eq_refl)) as (s1 & E1 & K1). rewrite E1. cbn [obind].
      destruct (events_kept d es Fe _ _ s1 K1) as (ws & s2 & lo' & hi' & E2 & A & K2). rewrite E2. cbn [obind fst snd].
      destruct (IH (d_cols d, length (d_mat d)) s2) as (outs & s' & E3 & G).
      { intros it rest _. right. right. cbn [fst snd]. destruct K2 as (_ & K). repeat split; apply K. }
      rewrite E3. cbn [obind fst snd]. exists (ws :: outs), s'. split; [reflexivity|]. constructor; assumption.
  Qed.
End Asked.
(** Let the solver be new, or the first convexification have changed the sizes of the problem.  Whatever updates in place
    the library refuses, no assertion fails, and every solve that takes place is a solve of the QP offered last, with the
    bounds offered last; it takes place unless the library cannot set the problem up. *)
Theorem C110_run : forall (T : Type) (NT : Num T) (its : list (qpd T * (bool * bool * bool * bool) * list (event T))) prev (s : solver T),
  Forall (fun it => data_ok (fst (fst it)) /\ Forall (event_ok (fst (fst it))) (snd it)) its ->
  (o_status s = Uninitialized \/ forall it rest, its = it :: rest -> (d_cols (fst (fst it)), length (d_mat (fst (fst it)))) <> prev) ->
  exists outs s', run_iters prev its s = Ok (outs, s') /\
    Forall2 (fun it ws => answers (fst (fst it)) (d_lo (fst (fst it))) (d_hi (fst (fst it))) (snd it) ws) its outs.
Proof. exact (@run_asked). Qed.
Print Assumptions C110_run.
Local Open Scope R_scope.

(** What a convexified problem offers fits together, with as many variables as it has gradient entries; a resize of
    the trust region afterwards changes nothing but the bounds, and those keep their number. *)
Theorem C110_problem : forall p : qp R, reach p -> q_init p = true -> all_usable p ->
  exists p', convexify sqrt p = Val p' /\ data_ok (qp_data p') /\ (length (q_x p) <= d_cols (qp_data p'))%nat /\
    forall box k p'', set_box p' box = Val p'' \/ scale_box p' k = Val p'' ->
      d_hess (qp_data p'') = d_hess (qp_data p') /\ d_grad (qp_data p'') = d_grad (qp_data p') /\ d_mat (qp_data p'') = d_mat (qp_data p') /\
      data_ok (qp_data p'').
Proof.
  intros p Re H U. pose proof (reach_inv p Re) as I. destruct (convexify_spec p I H U) as (p' & E & C). exists p'. split; [exact E|].
  assert (Lb : length (box_rows (q_bnds p) (q_x p) (q_box p)) = length (q_x p)).
  { unfold box_rows. rewrite map_length, !combine_length, (iv_bnds p I). destruct (iv_box p I H). lia. }
  pose proof (cv_obj _ _ C) as (q & (_ & _ & _ & Lq & Lh & _) & _ & Eg & Eh & _).
  assert (Lg : length (c_grad (q_cvx p')) = (length (q_x p) + length (slack_costs (qp_rows p)))%nat) by (rewrite Eg, app_length, Lq; reflexivity).
  assert (Lhh : length (c_hess (q_cvx p')) = length (q_x p)) by (rewrite Eh, map_length; exact Lh).
  assert (Lm : length (c_mat (q_cvx p')) = (length (qp_rows p) + length (q_x p) + length (slack_costs (qp_rows p)))%nat).
  { rewrite (cv_mat _ _ C), app_length, placed_length, map_length, seq_length. lia. }
  assert (G : forall pp, c_hess (q_cvx pp) = c_hess (q_cvx p') -> c_grad (q_cvx pp) = c_grad (q_cvx p') -> c_mat (q_cvx pp) = c_mat (q_cvx p') -> c_rowb (q_cvx pp) = c_rowb (q_cvx p') ->
     length (c_varb (q_cvx pp)) = length (c_varb (q_cvx p')) -> c_slackb (q_cvx pp) = c_slackb (q_cvx p') -> data_ok (qp_data pp)).
  { intros pp G1 G2 G3 G4 G5 G6. unfold data_ok, qp_data. cbn [d_hess d_grad d_mat d_cols d_lo d_hi]. rewrite G1, G2, G3, G4, G6.
    rewrite !map_length, !app_length, !map_length, G5, (cv_rowb _ _ C), (cv_varb _ _ C), (cv_slackb _ _ C), !map_length, !repeat_length, Lg, Lhh, Lm, Lb. repeat split; lia. }
  split; [apply G; reflexivity|]. split; [cbn; rewrite Lg; lia|]. intros box k p'' B.
  assert (B' : exists bx, update_box p' bx = Val p'').
  { destruct B as [B|B]; [|exists (map (fun b => b * k)%num (q_box p')); exact B]. exists box. unfold set_box in B. destruct (_ =? _)%nat; [exact B|discriminate]. }
  destruct B' as (bx & B'). unfold update_box in B'. destruct (_ && _)%bool eqn:Q in B'; [|discriminate]. injection B' as <-.
  apply andb_prop in Q as (Q & Q3). apply andb_prop in Q as (Q & Q2). apply andb_prop in Q as (Q0 & Q1). apply Nat.eqb_eq in Q0, Q1, Q2, Q3.
  repeat (split; [reflexivity|]). apply G; try reflexivity. cbn [q_cvx c_varb]. unfold box_rows. rewrite !map_length, !combine_length. lia.
Qed.
Print Assumptions C110_problem.

(** one variable, [rows] rows [x >= b] *)
Section Small.
  Context {T : Type} {NT : Num T}.
  Definition small (rows : nat) (b : T) : qpd T :=
    {| d_hess := [[none_]]; d_grad := [none_]; d_mat := repeat [(0%nat, none_)] rows; d_cols := 1; d_lo := repeat (Some b) rows; d_hi := repeat None rows |}.
  Lemma small_ok n b : data_ok (small n b).
  Proof. unfold data_ok, small. cbn. rewrite !repeat_length. auto. Qed.
  Lemma small_run (a0 a1 a3 : T) : let its := [(small 2 a0, (true, true, true, true), [ESolve true false; EBounds true [Some a1; None] [None; None]; ESolve true true]);
              (small 2 a3, (true, true, false, true), [ESolve true true])] in
    exists a b c s, run_iters (0%nat, 0%nat) its solver_new = Ok ([[Some a; Some b]; [Some c]], s) /\
      o_ready a = false /\ o_bnd b = Held ([clamp_lo (Some a1); clamp_lo None], [clamp_hi None; clamp_hi None]) /\ o_ready c = false /\
      o_bnd c = Held ([clamp_lo (Some a3); clamp_lo (Some a3)], [clamp_hi None; clamp_hi None]) /\ o_status s = Initialized.
  Proof. cbv zeta. eexists _, _, _, _. vm_compute. split; [reflexivity|]. repeat split; reflexivity. Qed.
  Lemma small_reuse (a : T) : exists outs s, run_iters (0%nat, 0%nat) [(small 1 a, (true, true, true, true), [ESolve true true])] solver_new = Ok (outs, s) /\
    forall k3 k4 es rest, run_iters (1%nat, 2%nat) ((small 2 a, (true, true, k3, k4), es) :: rest) s = Undef.
  Proof. eexists _, _. split; [vm_compute; reflexivity|]. intros. vm_compute. reflexivity. Qed.
  Lemma small_ignored (a : T) lo hi : length lo = 1%nat -> length hi = 1%nat -> exists a1 b s,
    run_iters (0%nat, 0%nat) [(small 1 a, (true, true, true, true), [ESolve true true; EBounds false lo hi; ESolve true true])] solver_new = Ok ([[Some a1; Some b]], s) /\ o_bnd b = Stale.
  Proof. destruct lo as [|l [|? ?]]; try discriminate. destruct hi as [|h [|? ?]]; try discriminate. intros _ _. eexists _, _, _. split; [vm_compute; reflexivity|reflexivity]. Qed.
  Lemma small_status (a : T) : exists s ws s', prepare (true, true, true, true) (0%nat, 0%nat) (small 1 a) solver_new = Ok s /\
    run_events [ESolve true false; ESolve true true] s = Ok (ws, s') /\ (exists w1 w2, ws = [Some w1; Some w2]) /\ o_status s' = Failed.
  Proof. eexists _, _, _. split; [vm_compute; reflexivity|]. split; [vm_compute; reflexivity|]. split; [eexists _, _; reflexivity|reflexivity]. Qed.
End Small.
(** two iterations; the first solve fails and the bounds are changed, the library then refuses the new matrix *)
Example C110_run_ex :
  let its := [(small 2 0, (true, true, true, true), [ESolve true false; EBounds true [Some 1; None] [None; None]; ESolve true true]);
              (small 2 3, (true, true, false, true), [ESolve true true])] in
  (Forall (fun it => data_ok (fst (fst it)) /\ Forall (event_ok (fst (fst it))) (snd it)) its /\ o_status (solver_new (T := R)) = Uninitialized) /\
  exists a b c s, run_iters (0%nat, 0%nat) its solver_new = Ok ([[Some a; Some b]; [Some c]], s) /\
    o_ready a = false /\ o_bnd b = Held ([clamp_lo (Some 1); clamp_lo None], [clamp_hi None; clamp_hi None]) /\ o_ready c = false /\
    o_bnd c = Held ([clamp_lo (Some 3); clamp_lo (Some 3)], [clamp_hi None; clamp_hi None]) /\ o_status s = Initialized.
Proof.
  cbv zeta. split; [|apply small_run]. split; [|reflexivity]. repeat (apply Forall_cons || apply Forall_nil); (split; [apply small_ok|]); cbn [fst snd]; repeat (apply Forall_cons || apply Forall_nil); unfold event_ok; auto.
Qed.
Example C110_problem_ex : exists p', convexify sqrt mixed = Val p' /\ data_ok (qp_data p') /\ (2 <= d_cols (qp_data p'))%nat.
Proof. destruct (C110_problem mixed mixed_reach eq_refl mixed_usable) as (p' & E & D & L & _). exists p'. auto. Qed.

(** A solver that has solved one problem is given another one which was convexified before: the sizes are compared with
    those of the problem itself, not with those of the solver, and the assertion on the matrix fails. *)
Theorem C110_reuse_refuted : exists (d d' : qpd R) outs s, data_ok d /\ data_ok d' /\
  run_iters (0%nat, 0%nat) [(d, (true, true, true, true), [ESolve true true])] solver_new = Ok (outs, s) /\
  forall k3 k4 es rest, run_iters (d_cols d', length (d_mat d')) ((d', (true, true, k3, k4), es) :: rest) s = Undef.
Proof. exists (small 1 0), (small 2 0). destruct (small_reuse 0) as (outs & s & E & G). exists outs, s. split; [apply small_ok|]. split; [apply small_ok|]. split; [exact E|exact G]. Qed.
Print Assumptions C110_reuse_refuted.
(** The result of updateBounds in the trust region loop is not looked at: after a refusal the loop solves once more
    although the library does not hold the new bounds. *)
Theorem C110_ignored_refuted : exists (d : qpd R) lo hi a b s, data_ok d /\ length lo = length (d_mat d) /\ length hi = length (d_mat d) /\
  run_iters (0%nat, 0%nat) [(d, (true, true, true, true), [ESolve true true; EBounds false lo hi; ESolve true true])] solver_new = Ok ([[Some a; Some b]], s) /\
  ~ asked d lo hi b.
Proof.
  exists (small 1 0), [Some 1], [Some 2]. destruct (small_ignored 0 [Some 1] [Some 2] eq_refl eq_refl) as (a & b & s & E & B). exists a, b, s.
  split; [apply small_ok|]. split; [reflexivity|]. split; [reflexivity|]. split; [exact E|]. intros (_ & _ & _ & A). rewrite B in A. discriminate.
Qed.
Print Assumptions C110_ignored_refuted.
(** The status of the solver stays "failed" after a later solve that succeeds. *)
Theorem C110_status_refuted : exists (d : qpd R) s w1 w2 s', data_ok d /\ prepare (true, true, true, true) (0%nat, 0%nat) d solver_new = Ok s /\
  run_events [ESolve true false; ESolve true true] s = Ok ([Some w1; Some w2], s') /\ o_status s' = Failed.
Proof. exists (small 1 0). destruct (small_status 0) as (s & ws & s' & E1 & E2 & (w1 & w2 & ->) & E3). exists s, w1, w2, s'. split; [apply small_ok|]. auto. Qed.
Print Assumptions C110_status_refuted.

(** ** The numbers handed to the library (C111) *)
(** the objective of the QP problem, and the one OSQP minimises for [P], [q] *)
Definition own_objective (d : qpd R) (z : list R) : R := qform (d_cols d) (d_hess d) z + vdot (d_grad d) z.
Definition osqp_objective (n : nat) (P : list (list R)) (q z : list R) : R := / 2 * qform n P z + vdot q z.
Definition within (l u v : R) : Prop := l <= v <= u.

Lemma qform_twice n (h : list (list R)) z : qform n (map (map (fun v => nofZ 2 * v)%num) h) z = 2 * qform n h z.
Proof.
  unfold qform. rewrite <- bigsum_scal. apply bigsum_ext. intros i _. rewrite <- bigsum_scal. apply bigsum_ext. intros k _.
  assert (E : nth k (nth i (map (map (fun v => nofZ 2 * v)%num) h) []) 0 = 2 * nth k (nth i h []) 0).
  { destruct (Nat.lt_ge_cases i (length h)) as [L|L].
    - rewrite (nth_map_d (map (fun v => nofZ 2 * v)%num) h i [] []) by exact L. destruct (Nat.lt_ge_cases k (length (nth i h []))) as [L'|L'].
      + rewrite (nth_map_d (fun v => nofZ 2 * v)%num _ k 0 0) by exact L'. reflexivity.
      + rewrite !nth_overflow by (rewrite ?map_length; lia). ring.
    - rewrite (nth_overflow (map _ _)) by (rewrite map_length; exact L). rewrite (nth_overflow h) by exact L. destruct k; cbn; ring. }
  rewrite E. ring.
Qed.
Lemma clean_close (g z : list R) : length g = length z ->
  Rabs (vdot (map (fun v => if nabs v <? ndec 1 (-7) then nzero else v)%num g) z - vdot g z) <= / 10 ^ 7 * rsum Rabs z.
Proof.
  unfold vdot. rewrite !vsum_R. revert z. induction g as [|a g IH]; intros [|b z] L; try discriminate; [cbn [combine map Rsum]; rewrite rsum_nil, Rminus_diag_eq, Rabs_R0 by reflexivity; lra|].
  injection L as L. specialize (IH z L). cbn [combine map]. cbn [Rsum fst snd]. rewrite rsum_cons. rnum.
  set (t := if Rltb _ _ then _ else _). assert (Ht : Rabs (t - a) <= / 10 ^ 7). { rewrite Rabs_minus_sym. exact (thr_close a). }
  match goal with |- Rabs (?x + ?y - (?u + ?v)) <= _ => replace (x + y - (u + v)) with ((t - a) * b + (y - v)) by ring end.
  eapply Rle_trans; [apply Rabs_triang|]. rewrite Rmult_plus_distr_l. apply Rplus_le_compat; [|exact IH]. rewrite Rabs_mult. apply Rmult_le_compat_r; [apply Rabs_pos|exact Ht].
Qed.

Lemma clean_exact (g : list R) : Forall (fun v => v = 0 \/ / 10 ^ 7 <= Rabs v) g -> map (fun v => if nabs v <? ndec 1 (-7) then nzero else v)%num g = g.
Proof. intros F. rewrite <- (map_id g) at 2. apply map_ext_in. intros v Hv. rewrite Forall_forall in F. exact (thr_id v (F v Hv)). Qed.
(** OSQP minimises the objective of the problem, up to 1e-7 for each unit of the point; exactly so if no entry of the
    gradient is smaller than 1e-7. *)
Theorem C111_objective : forall (d : qpd R) lo hi w z, asked d lo hi w -> data_ok d -> length z = d_cols d ->
  exists P q, o_hess w = Held P /\ o_grad w = Held q /\
    Rabs (osqp_objective (d_cols d) P q z - own_objective d z) <= / 10 ^ 7 * rsum Rabs z /\
    (Forall (fun v => v = 0 \/ / 10 ^ 7 <= Rabs v) (d_grad d) -> osqp_objective (d_cols d) P q z = own_objective d z).
Proof.
  intros d lo hi w z (A1 & A2 & _) (_ & D2 & _) L. eexists _, _. split; [exact A1|]. split; [exact A2|]. unfold osqp_objective, own_objective. rewrite qform_twice.
  split.
  - match goal with |- Rabs ?x <= _ => replace x with (vdot (map (fun v => if nabs v <? ndec 1 (-7) then nzero else v)%num (d_grad d)) z - vdot (d_grad d) z) by field end.
    apply clean_close. congruence.
  - intros F. rewrite clean_exact by exact F. field.
Qed.
Print Assumptions C111_objective.
(** The bounds it works with admit the same points as those of the problem, among the points whose row values stay within
    1e30. *)
Lemma Rdec30 : (ndec 1 30 : R) = 10 ^ 30.
Proof. cbn [ndec R_Num]. unfold Rdec. change (Pos.to_nat 30) with 30%nat. apply Rmult_1_l. Qed.
Theorem C111_bounds : forall (d : qpd R) lo hi w z, asked d lo hi w -> Forall (fun r => Rabs (srow_dot r z) <= 10 ^ 30) (d_mat d) ->
  exists L U, o_bnd w = Held (L, U) /\ length L = length lo /\ length U = length hi /\
    (Forall2 (fun r lu => fst lu <= srow_dot r z <= snd lu) (d_mat d) (combine L U) <->
     Forall2 (fun r b => inside {| b_lo := fst b; b_hi := snd b |} (srow_dot r z)) (d_mat d) (combine lo hi)).
Proof.
  intros d lo hi w z (_ & _ & _ & A) F. eexists _, _. split; [exact A|]. rewrite !map_length. split; [reflexivity|]. split; [reflexivity|]. clear A. revert lo hi.
  induction F as [|r m Hr F IH]; intros [|l lo] [|h hi]; cbn [map combine]; split; intros X; inversion X; subst; constructor; try (apply IH; assumption); cbn [fst snd] in *;
    rewrite ?nmax_R, ?nmin_R, ?Rdec30 in *; change (@nopp R R_Num) with Ropp in *.
  - match goal with G : _ <= srow_dot r z <= _ |- _ => destruct G as [G1 G2] end. split; cbn [b_lo b_hi]; intros v ->.
    + rewrite nmax_R in G1. eapply Rle_trans; [apply Rmax_l|exact G1].
    + rewrite nmin_R in G2. eapply Rle_trans; [exact G2|apply Rmin_l].
  - match goal with G : inside _ _ |- _ => destruct G as [G1 G2] end. cbn [b_lo b_hi] in G1, G2.
    assert (B : - 10 ^ 30 <= srow_dot r z <= 10 ^ 30) by (revert Hr; unfold Rabs; destruct (Rcase_abs _); lra).
    split; [destruct l as [v|]|destruct h as [v|]]; rewrite ?nmax_R, ?nmin_R; try apply B.
    + apply Rmax_lub; [apply G1; reflexivity|apply B].
    + apply Rmin_glb; [apply G2; reflexivity|apply B].
Qed.
Print Assumptions C111_bounds.
Lemma pad_nth (h : list (list R)) n m i k : length h = n -> Forall (fun r => length r = n) h ->
  nth k (nth i (map (fun r => r ++ repeat nzero (m - length r)) h ++ repeat (repeat nzero m) (m - length h)) []) 0 = nth k (nth i h []) 0.
Proof.
  intros L F. change (@nzero R R_Num) with 0. assert (Z : forall j q, nth j (repeat 0 q) 0 = 0).
  { intros j q. destruct (Nat.lt_ge_cases j q); [apply nth_repeat|apply nth_overflow; rewrite repeat_length; lia]. }
  destruct (Nat.lt_ge_cases i n) as [Hi|Hi].
  - rewrite app_nth1 by (rewrite map_length; lia). rewrite (nth_map_d (fun r => r ++ repeat 0 (m - length r)) h i [] []) by lia.
    rewrite Forall_forall in F. assert (Lr : length (nth i h []) = n) by (apply F, nth_In; lia).
    destruct (Nat.lt_ge_cases k n) as [Hk|Hk]; [apply app_nth1; lia|]. rewrite app_nth2 by lia. rewrite Z. symmetry. apply nth_overflow. lia.
  - rewrite app_nth2 by (rewrite map_length; lia). rewrite (nth_overflow h) by lia. replace (nth k [] 0) with 0 by (destruct k; reflexivity).
    set (j := (i - _)%nat). destruct (Nat.lt_ge_cases j (m - length h)) as [Hj|Hj].
    + rewrite (nth_indep _ [] (repeat 0 m)) by (rewrite repeat_length; lia). rewrite nth_repeat. apply Z.
    + rewrite (nth_overflow (repeat (repeat 0 m) _)) by (rewrite repeat_length; lia). destruct k; reflexivity.
Qed.
Lemma bigsum_less n m f : (n <= m)%nat -> (forall i, (n <= i < m)%nat -> f i = 0) -> bigsum m f = bigsum n f.
Proof. induction 1 as [|m Hm IH]; intros Z; [reflexivity|]. rewrite bigsum_S, IH, Z by (try lia; intros; apply Z; lia). ring. Qed.
Lemma problem_conv (p p' : qp R) : convexified p p' ->
    (forall y s, length y = length (q_x p) -> (length y + length s)%nat = d_cols (qp_data p') ->
       own_objective (qp_data p') (y ++ s) = objective_value p' y + vdot (skipn (length y) (c_grad (q_cvx p'))) s) /\
    forall z, Forall2 (fun r b => inside {| b_lo := fst b; b_hi := snd b |} (srow_dot r z)) (d_mat (qp_data p')) (combine (d_lo (qp_data p')) (d_hi (qp_data p'))) <->
      qp_feasible (q_cvx p') z.
Proof.
  intros C.
  pose proof (cv_keep _ _ C) as (K1 & _). pose proof (cv_obj _ _ C) as (q & (_ & _ & _ & Lq & Lh & Fh) & _ & Eg & Eh & _). split.
  - intros y s Ly Ls. unfold own_objective, objective_value. cbn [qp_data d_cols d_hess d_grad] in *. rewrite K1, <- Ly.
    assert (Q : qform (length (c_grad (q_cvx p'))) (map (fun r => r ++ repeat nzero (length (c_grad (q_cvx p')) - length r)) (c_hess (q_cvx p')) ++ repeat (repeat nzero (length (c_grad (q_cvx p')))) (length (c_grad (q_cvx p')) - length (c_hess (q_cvx p')))) (y ++ s) =
       qform (length y) (c_hess (q_cvx p')) y).
    { assert (Lc : length (c_hess (q_cvx p')) = length y) by (rewrite Eh, map_length; congruence).
      assert (Fc : Forall (fun r => length r = length y) (c_hess (q_cvx p'))).
      { rewrite Eh. apply Forall_map. eapply Forall_impl; [|exact Fh]. cbn. intros r Hr. rewrite map_length. congruence. }
      unfold qform. rewrite (bigsum_less (length y)); [|lia|].
      2: { intros i Hi. rewrite (bigsum_ext _ _ (fun _ => 0)); [apply bigsum_zero|]. intros k _. rewrite (pad_nth _ (length y)) by assumption. rewrite (nth_overflow (c_hess _)) by lia. destruct k; cbn; ring. }
      apply bigsum_ext. intros i Hi. rewrite (bigsum_less (length y)).
      - apply bigsum_ext. intros k Hk. rewrite (pad_nth _ (length y)) by assumption. rewrite !app_nth1 by assumption. reflexivity.
      - lia.
      - intros k Hk. rewrite (pad_nth _ (length y)) by assumption. rewrite Forall_forall in Fc. rewrite (nth_overflow (nth i _ [])); [ring|]. rewrite Fc; [lia|]. apply nth_In. lia. }
    rewrite Q. rewrite <- (firstn_skipn (length y) (c_grad (q_cvx p'))) at 1. rewrite vdot_app by (rewrite firstn_length; lia). ring.
  - intros z. unfold qp_feasible, all_bounds, qp_data. cbn [d_mat d_lo d_hi].
    assert (W : Forall (fun ob => exists b : bnd R, ob = Some b) (c_rowb (q_cvx p') ++ c_varb (q_cvx p') ++ map Some (c_slackb (q_cvx p')))).
    { rewrite (cv_rowb _ _ C), (cv_varb _ _ C), !Forall_app. repeat split; apply Forall_forall; intros ob Ho; apply in_map_iff in Ho as (? & <- & _); eauto. }
    generalize dependent (c_rowb (q_cvx p') ++ c_varb (q_cvx p') ++ map Some (c_slackb (q_cvx p'))). generalize (c_mat (q_cvx p')). clear. intros m l W. revert m.
    induction W as [|ob l (b & ->) W IH]; intros [|r m]; cbn [map combine]; split; intros X; inversion X as [|? ? ? ? X1 X2]; subst; constructor; try (apply IH; assumption).
    + exists b. split; [reflexivity|]. destruct b; exact X1.
    + destruct X1 as (b' & [= <-] & X1). destruct b; exact X1.
Qed.
(** What the problem offers is the QP it stands for: the objective of C84 plus the cost of the slack variables, and the
    rows and bounds of [qp_feasible]. *)
Theorem C111_problem : forall p : qp R, reach p -> q_init p = true -> all_usable p ->
  exists p', convexify sqrt p = Val p' /\
    (forall y s, length y = length (q_x p) -> (length y + length s)%nat = d_cols (qp_data p') ->
       own_objective (qp_data p') (y ++ s) = objective_value p' y + vdot (skipn (length y) (c_grad (q_cvx p'))) s) /\
    forall z, Forall2 (fun r b => inside {| b_lo := fst b; b_hi := snd b |} (srow_dot r z)) (d_mat (qp_data p')) (combine (d_lo (qp_data p')) (d_hi (qp_data p'))) <->
      qp_feasible (q_cvx p') z.
Proof.
  intros p Re H U. pose proof (reach_inv p Re) as I. destruct (convexify_spec p I H U) as (p' & E & C). exists p'. split; [exact E|]. apply problem_conv, C.
Qed.
Print Assumptions C111_problem.

(** the solver as it is after the preparation for [d] *)
Definition loaded (d : qpd R) : solver R :=
  {| o_ready := false; o_hess := Held (twice (d_hess d)); o_grad := Held (map clean (d_grad d)); o_mat := Held (d_mat d);
     o_bnd := Held (map clamp_lo (d_lo d), map clamp_hi (d_hi d)); o_nv := d_cols d; o_nc := length (d_mat d); o_status := Initialized |}.
Lemma loaded_asked d : asked d (d_lo d) (d_hi d) (loaded d).
Proof. repeat split; reflexivity. Qed.
Definition slope (g : R) : qpd R := {| d_hess := [[3]]; d_grad := [g]; d_mat := [[(0%nat, 2)]]; d_cols := 1; d_lo := [Some 1]; d_hi := [None] |}.
Lemma slope_ok g : data_ok (slope g).
Proof. repeat split; reflexivity. Qed.
Lemma slope_own g v : own_objective (slope g) [v] = 3 * v ^ 2 + g * v.
Proof. unfold own_objective, qform, bigsum, slope. cbn [d_cols d_hess d_grad seq]. rewrite !rsum_cons, !rsum_nil. cbn [nth]. unfold vdot. rewrite vsum_R. cbn [combine map Rsum fst snd]. rnum. ring. Qed.
Example C111_objective_ex : exists P q, o_hess (loaded (slope 5)) = Held P /\ o_grad (loaded (slope 5)) = Held q /\ osqp_objective 1 P q [2] = 22.
Proof.
  destruct (C111_objective (slope 5) _ _ (loaded (slope 5)) [2] (loaded_asked _) (slope_ok 5) eq_refl) as (P & q & E1 & E2 & _ & E). exists P, q. split; [exact E1|]. split; [exact E2|].
  change 1%nat with (d_cols (slope 5)). rewrite E; [rewrite slope_own; ring|]. cbn [slope d_grad]. constructor; [|constructor]. right. rewrite Rabs_right by lra. lra.
Qed.
Example C111_bounds_ex : exists L U, o_bnd (loaded (slope 5)) = Held (L, U) /\ Forall2 (fun r lu => fst lu <= srow_dot r [2] <= snd lu) [[(0%nat, 2)]] (combine L U).
Proof.
  assert (D : srow_dot [(0%nat, 2)] [2] = 4) by (rewrite srow_dot_R, rsum_cons, rsum_nil; cbn [fst snd nth]; ring).
  destruct (C111_bounds (slope 5) _ _ (loaded (slope 5)) [2] (loaded_asked _)) as (L & U & E & _ & _ & G).
  - cbn [slope d_mat]. constructor; [|constructor]. rewrite D, Rabs_right by lra. lra.
  - exists L, U. split; [exact E|]. apply G. cbn [slope d_mat d_lo d_hi combine]. constructor; [|constructor]. rewrite D. split; cbn [b_lo b_hi fst snd]; intros v [= <-]. lra.
Qed.
Example C111_problem_ex : exists p', convexify sqrt mixed = Val p' /\
  own_objective (qp_data p') ([1; 0] ++ repeat 0 (d_cols (qp_data p') - 2)) = objective_value p' [1; 0].
Proof.
  destruct (C110_problem mixed mixed_reach eq_refl mixed_usable) as (p' & E & _ & Lc & _). change (length (q_x mixed)) with 2%nat in Lc.
  destruct (C111_problem mixed mixed_reach eq_refl mixed_usable) as (p1 & E1 & G & _). rewrite E in E1. injection E1 as <-. exists p'. split; [exact E|].
  rewrite G by (try reflexivity; rewrite repeat_length; cbn [length]; lia).
  replace (vdot _ (repeat 0 _)) with 0; [ring|]. symmetry. unfold vdot. rewrite vsum_R. generalize (skipn (length [1; 0]) (c_grad (q_cvx p'))). generalize (d_cols (qp_data p') - 2)%nat.
  clear. intros k l. revert k. induction l as [|a l IH]; intros [|k]; cbn [repeat combine map Rsum]; auto. cbn [fst snd]. rewrite IH. rnum. ring.
Qed.
(** Without that: the solver can be indifferent between points whose objectives differ by one. *)
Theorem C111_gradient_refuted : exists (d : qpd R) lo hi w P q z z', asked d lo hi w /\ data_ok d /\ o_hess w = Held P /\ o_grad w = Held q /\ length z = d_cols d /\ length z' = d_cols d /\
  osqp_objective (d_cols d) P q z = osqp_objective (d_cols d) P q z' /\ own_objective d z + 1 <= own_objective d z'.
Proof.
  pose (d := {| d_hess := [[0]]; d_grad := [/ 10 ^ 8]; d_mat := []; d_cols := 1; d_lo := []; d_hi := [] |} : qpd R).
  exists d, [], [], (loaded d), (twice (d_hess d)), [0], [0], [10 ^ 8]. split; [apply loaded_asked|]. split; [repeat split; reflexivity|]. split; [reflexivity|]. split.
  - cbn [loaded o_grad d d_grad map]. unfold clean. cbn [ndec R_Num]. unfold Rdec. change (Pos.to_nat 7) with 7%nat. rnum. rewrite Rabs_right by lra. destruct (Rltb_spec (/ 10 ^ 8) (1 / 10 ^ 7)) as [_|X]; [reflexivity|lra].
  - split; [reflexivity|]. split; [reflexivity|]. unfold osqp_objective, own_objective, twice. rewrite !qform_twice. unfold qform, bigsum. cbn [d d_cols d_hess d_grad seq]. rewrite !rsum_cons, !rsum_nil. cbn [nth].
    unfold vdot. rewrite !vsum_R. cbn [combine map Rsum fst snd]. rnum. split; [ring|]. rewrite Rinv_l by lra. lra.
Qed.
Print Assumptions C111_gradient_refuted.

(** ** The warm start (C112) *)
Lemma warm_row_shape n v (r : srow R) : forall x0, Forall (fun e => (fst e < length x0)%nat) r ->
  exists x1, warm_row n v r x0 = Val x1 /\ length x1 = length x0 /\ (forall i, (i < n)%nat -> nth i x1 0 = nth i x0 0) /\
    forall i, 0 <= nth i x0 0 -> 0 <= nth i x1 0.
Proof.
  induction r as [|(c, k) r IH]; intros x0 F.
  - exists x0. repeat split; auto.
  - apply Forall_cons_iff in F as (Hc & F). cbn [warm_row]. cbn [fst] in Hc. destruct (Nat.leb_spec n c) as [L|L]; cbn [andb]; [|apply IH, F].
    destruct (nabs k >? ndec 1 (-14))%num; [|apply IH, F]. rewrite (proj2 (Nat.ltb_lt _ _) Hc).
    destruct (IH (upd x0 c (nmax nzero (v / k)%num))) as (x1 & E & L1 & P1 & N1); [rewrite upd_length; exact F|]. exists x1. split; [exact E|]. rewrite upd_length in L1. split; [exact L1|]. split.
    + intros i Hi. rewrite P1, upd_nth by assumption. destruct (Nat.eqb_spec i c); [lia|reflexivity].
    + intros i Hi. apply N1. rewrite upd_nth by exact Hc. destruct (i =? c)%nat; [|exact Hi]. rewrite nmax_R. apply Rmax_l.
Qed.
Lemma warm_rows_shape n : forall vs mat x0, (length vs <= length mat)%nat -> Forall (Forall (fun e => (fst e < length x0)%nat)) mat ->
  exists x1, warm_rows n vs mat x0 = Val x1 /\ length x1 = length x0 /\ (forall i, (i < n)%nat -> nth i x1 0 = nth i x0 0) /\
    forall i, 0 <= nth i x0 0 -> 0 <= nth i x1 0.
Proof.
  induction vs as [|v vs IH]; intros [|r mat] x0 L F; cbn [length] in L; try lia; try (exists x0; repeat split; auto; fail).
  apply Forall_cons_iff in F as (Fr & F). cbn [warm_rows]. destruct (warm_row_shape n v r x0 Fr) as (x1 & E1 & L1 & P1 & N1). rewrite E1. cbn [rbind].
  destruct (IH mat x1) as (x2 & E2 & L2 & P2 & N2); [lia|rewrite L1; exact F|]. exists x2. split; [exact E2|]. split; [congruence|]. split; [intros i Hi; rewrite P2, P1 by exact Hi; reflexivity|].
  intros i Hi. apply N2, N1, Hi.
Qed.
Lemma placed_cols n l : forall off, Forall (fun mr => in_cols n (snd mr)) l -> Forall (Forall (fun e => (fst e < n + off + length (slack_costs l))%nat)) (placed n off l).
Proof.
  induction l as [|mr l IH]; intros off F; [constructor|]. apply Forall_cons_iff in F as (Fm & F). cbn [placed].
  assert (Lc : length (slack_costs (mr :: l)) = (length (signs (snd mr)) + length (slack_costs l))%nat) by (unfold slack_costs; cbn [flat_map]; rewrite app_length, map_length; reflexivity).
  rewrite Lc. constructor.
  - apply Forall_app. split.
    + unfold thr_row. apply Forall_map. eapply Forall_impl; [|exact Fm]. cbn [fst]. intros. lia.
    + apply Forall_forall. intros (c, k) Hin. apply in_combine_l, in_seq in Hin. cbn [fst]. lia.
  - specialize (IH (off + length (signs (snd mr)))%nat F). eapply Forall_impl; [|exact IH]. intros r Hr. eapply Forall_impl; [|exact Hr]. cbn. intros. lia.
Qed.
(** The start begins with the current variables, and the values it gives to the slack variables are not negative -- provided
    there are no more constraint sets than rows. *)
Theorem C112_start : forall p : qp R, reach p -> q_init p = true -> all_usable p ->
  exists p', convexify sqrt p = Val p' /\ ((length (merits (q_src p)) <= length (c_mat (q_cvx p')))%nat ->
    exists z, warm_start (d_cols (qp_data p')) p' = Val (q_x p ++ z) /\ (length (q_x p) + length z)%nat = d_cols (qp_data p') /\ Forall (fun v => 0 <= v) z).
Proof.
  intros p Re H U. pose proof (reach_inv p Re) as I. destruct (convexify_spec p I H U) as (p' & E & C). exists p'. split; [exact E|]. intros Lm.
  pose proof (cv_keep _ _ C) as (K1 & _). pose proof (cv_obj _ _ C) as (q & (_ & _ & _ & Lq & _) & _ & Eg & _).
  assert (Lg : d_cols (qp_data p') = (length (q_x p) + length (slack_costs (qp_rows p)))%nat) by (cbn [qp_data d_cols]; rewrite Eg, app_length, Lq; reflexivity).
  rewrite Lg. unfold warm_start. rewrite K1. rewrite (proj2 (Nat.leb_le _ _)) by lia. replace (length (q_x p) + length (slack_costs (qp_rows p)) - length (q_x p))%nat with (length (slack_costs (qp_rows p))) by lia.
  set (n := length (q_x p)). set (ns := length (slack_costs (qp_rows p))) in *. set (x0 := q_x p ++ repeat nzero ns).
  assert (Lx : length x0 = (n + ns)%nat) by (unfold x0; rewrite app_length, repeat_length; reflexivity).
  assert (Z : forall i, (n <= i)%nat -> nth i x0 0 = 0).
  { intros i Hi. unfold x0. rewrite app_nth2 by exact Hi. change (@nzero R R_Num) with 0. destruct (Nat.lt_ge_cases (i - n) ns); [apply nth_repeat|apply nth_overflow; rewrite repeat_length; fold n; lia]. }
  assert (G : forall x1, length x1 = length x0 -> (forall i, (i < n)%nat -> nth i x1 0 = nth i x0 0) -> (forall i, 0 <= nth i x0 0 -> 0 <= nth i x1 0) ->
     exists z, Val x1 = Val (q_x p ++ z) /\ (n + length z)%nat = (n + ns)%nat /\ Forall (fun v => 0 <= v) z).
  { intros x1 L1 P1 N1. exists (skipn n x1). rewrite skipn_length, L1, Lx. split; [|split; [lia|]].
    - f_equal. rewrite <- (firstn_skipn n x1) at 1. f_equal. apply nth_ext with (d := 0) (d' := 0); [rewrite firstn_length; lia|]. intros i Hi. rewrite firstn_length in Hi.
      rewrite <- (firstn_skipn n x1) in P1. specialize (P1 i ltac:(lia)). rewrite app_nth1 in P1 by (rewrite firstn_length; lia). rewrite P1. unfold x0. apply app_nth1. fold n. lia.
    - apply Forall_forall. intros v Hv. apply (In_nth _ _ 0) in Hv as (i & Hi & <-). rewrite skipn_length in Hi. 
      assert (En : nth i (skipn n x1) 0 = nth (n + i) x1 0) by (rewrite <- (firstn_skipn n x1) at 2; rewrite app_nth2 by (rewrite firstn_length; lia); f_equal; rewrite firstn_length; lia).
      rewrite En. apply N1. rewrite Z by lia. lra. }
  destruct (Nat.ltb_spec 0 ns) as [Hn|Hn]; [|apply (G x0); auto].
  pose proof (eval_violations_conv p p' I H U C (q_x p) [] eq_refl) as V. rewrite app_nil_r in V. rewrite V. cbn [rbind].
  destruct (warm_rows_shape n (map (lin_violation (q_x p) (q_x p)) (merits (q_src p))) (c_mat (q_cvx p')) x0) as (x1 & E1 & L1 & P1 & N1).
  - rewrite map_length. exact Lm.
  - rewrite (cv_mat _ _ C), Lx, Forall_app. split.
    + pose proof (all_rows_typed p U) as T. pose proof (placed_cols n (qp_rows p) 0) as Q. rewrite Nat.add_0_r in Q. apply Q. eapply Forall_impl; [|exact T]. cbn. tauto.
    + apply Forall_map, Forall_forall. intros i Hi. apply in_seq in Hi. constructor; [|constructor]. cbn [fst]. fold n ns in Hi. lia.
  - rewrite E1. apply (G x1); assumption.
Qed.
Print Assumptions C112_start.

Definition rgap (x0 : list R) (r : crow) : R := bound_viol (r_bnd r) (linear x0 r x0).
Definition fill (x0 : list R) (r : crow) : list R := map (fun s => Rmax 0 (rgap x0 r / s)) (signs r).
Lemma warm_row_skip n v (r r' : srow R) x0 : Forall (fun e => (fst e < n)%nat) r -> warm_row n v (r ++ r') x0 = warm_row n v r' x0.
Proof. induction 1 as [|(c, k) r Hc _ IH]; [reflexivity|]. cbn [app warm_row]. cbn [fst] in Hc. rewrite (proj2 (Nat.leb_gt _ _) Hc). cbn [andb]. exact IH. Qed.
Lemma upd_app (y : list R) a rest v : upd (y ++ a :: rest) (length y) v = y ++ v :: rest.
Proof. induction y as [|b y IH]; [reflexivity|]. cbn [app length upd]. rewrite IH. reflexivity. Qed.
Lemma unit_big s : s = 1 \/ s = -1 -> (nabs s >? ndec 1 (-14))%num = true.
Proof.
  intros Hs. cbn [ndec R_Num]. unfold Rdec. change (Pos.to_nat 14) with 14%nat. rnum. assert (A : Rabs s = 1) by (destruct Hs as [-> | ->]; unfold Rabs; destruct (Rcase_abs _); lra). rewrite A.
  destruct (Rltb_spec (1 / 10 ^ 14) 1) as [_|X]; [reflexivity|]. exfalso. lra.
Qed.
Lemma warm_row_fill n v ss : Forall (fun s => s = 1 \/ s = -1) ss -> forall y old rest, (n <= length y)%nat -> length old = length ss ->
  warm_row n v (combine (seq (length y) (length ss)) ss) (y ++ old ++ rest) = Val (y ++ map (fun s => Rmax 0 (v / s)) ss ++ rest).
Proof.
  induction 1 as [|s ss Hs _ IH]; intros y [|a old] rest Hn L; try discriminate; [reflexivity|]. cbn [length seq combine warm_row app].
  rewrite (proj2 (Nat.leb_le _ _) Hn), (unit_big s Hs). cbn [andb]. rewrite (proj2 (Nat.ltb_lt _ _)) by (rewrite app_length; cbn; lia). rewrite upd_app. injection L as L.
  specialize (IH (y ++ [nmax nzero (v / s)%num]) old rest). rewrite app_length in IH. cbn [length] in IH. rewrite Nat.add_1_r in IH. rewrite <- !app_assoc in IH. cbn [app] in IH. rewrite IH by lia.
  cbn [map app]. rewrite nmax_R. reflexivity.
Qed.
Lemma signs_unit r : Forall (fun s => s = 1 \/ s = -1) (signs r).
Proof.
  unfold signs. destruct (slack_signs (T := R) (type_of (r_bnd r))) as [ss|] eqn:E; [|constructor]. unfold slack_signs in E. destruct (type_of (r_bnd r)); try discriminate; injection E as <-;
    repeat (apply Forall_cons || apply Forall_nil); rnum; unfold none_; rnum; (left; lra) || (right; lra).
Qed.
Lemma warm_rows_fill n x0 l B : Forall (fun mr => in_cols n (snd mr)) l -> forall y off, length y = (n + off)%nat ->
  warm_rows n (map (fun mr => rgap x0 (snd mr)) l) (placed n off l ++ B) (y ++ repeat nzero (length (slack_costs l))) = Val (y ++ flat_map (fun mr => fill x0 (snd mr)) l).
Proof.
  induction 1 as [|mr l Hc _ IH]; intros y off L; [reflexivity|]. cbn [map placed app warm_rows flat_map].
  assert (Lc : length (slack_costs (mr :: l)) = (length (signs (snd mr)) + length (slack_costs l))%nat) by (unfold slack_costs; cbn [flat_map]; rewrite app_length, map_length; reflexivity).
  rewrite Lc, repeat_app, warm_row_skip by (unfold thr_row; apply Forall_map; exact Hc). rewrite <- L. rewrite warm_row_fill; [|apply signs_unit|lia|apply repeat_length]. cbn [rbind].
  fold (fill x0 (snd mr)). rewrite !app_assoc. apply IH. rewrite app_length. unfold fill. rewrite map_length. lia.
Qed.
Lemma fill_row x0 (r : crow) : typed r -> (forall u, b_hi (r_bnd r) = Some u -> linear x0 r x0 <= u) ->
  Forall (fun v => 0 <= v) (fill x0 r) /\ inside (r_bnd r) (linear x0 r x0 + vdot (signs r) (fill x0 r)) /\ rsum (fun v => v) (fill x0 r) = rgap x0 r.
Proof.
  intros (Hp & Ht) Hu. split; [unfold fill; apply Forall_map, Forall_forall; intros; apply Rmax_l|]. unfold fill. set (g := rgap x0 r). set (v := linear x0 r x0) in *.
  assert (G0 : 0 <= g /\ inside (r_bnd r) (v + g) /\ (b_lo (r_bnd r) = None -> g = 0)).
  { unfold g, rgap. fold v. rewrite bound_viol_abs. destruct (bound_cases (r_bnd r) v Hp) as [(lo & El & Hlt & Hv & _)|[(hi & Eh & Hgt & Hv & _)|(J & Hv & _)]]; rewrite Hv.
    - rewrite Rabs_left by lra. split; [lra|]. replace (v + - (v - lo)) with lo by ring. split; [|rewrite El; discriminate]. split.
      + intros l0 E0. rewrite El in E0. injection E0 as <-. lra.
      + intros u E0. apply (Hp lo u El E0).
    - specialize (Hu hi Eh). lra.
    - rewrite Rabs_R0, Rplus_0_r. repeat split; try lra; apply J. }
  destruct G0 as (G0 & G1 & G2). unfold signs. destruct Ht as [Ht|[Ht|Ht]]; rewrite Ht; cbn [slack_signs map]; rewrite !rsum_cons, ?rsum_nil; unfold vdot; rewrite vsum_R; cbn [combine map Rsum fst snd]; unfold none_; rnum.
  - assert (E1 : Rmax 0 (g / 1) = g) by (rewrite Rmax_right by (unfold Rdiv; rewrite Rinv_1; lra); field). assert (E2 : Rmax 0 (g / - (1)) = 0) by (apply Rmax_left; replace (g / - (1)) with (- g) by field; lra).
    rewrite E1, E2. split; [|ring]. replace (v + _) with (v + g) by ring. exact G1.
  - assert (E1 : Rmax 0 (g / 1) = g) by (rewrite Rmax_right by (unfold Rdiv; rewrite Rinv_1; lra); field). rewrite E1. split; [|ring]. replace (v + _) with (v + g) by ring. exact G1.
  - assert (Z : g = 0). { apply G2. unfold type_of in Ht. destruct (b_lo (r_bnd r)), (b_hi (r_bnd r)); try discriminate; try reflexivity. destruct (nabs _ <? _)%num in Ht; discriminate. }
    assert (E2 : Rmax 0 (g / - (1)) = 0) by (apply Rmax_left; replace (g / - (1)) with (- g) by field; lra). rewrite E2. split; [|lra]. replace (v + _) with (v + g) by (rewrite Z; ring). exact G1.
Qed.
Lemma fill_feas x0 l : Forall (fun mr => typed (snd mr) /\ forall u, b_hi (r_bnd (snd mr)) = Some u -> linear x0 (snd mr) x0 <= u) l ->
  sfeas x0 x0 l (flat_map (fun mr => fill x0 (snd mr)) l) /\ rsum (fun v => v) (flat_map (fun mr => fill x0 (snd mr)) l) = rsum (fun mr => rgap x0 (snd mr)) l.
Proof.
  induction 1 as [|mr l (Ht & Hu) _ (IH1 & IH2)]; [split; reflexivity|]. cbn [flat_map sfeas]. destruct (fill_row x0 (snd mr) Ht Hu) as (F1 & F2 & F3).
  assert (Lf : length (fill x0 (snd mr)) = length (signs (snd mr))) by apply map_length. rewrite firstn_exact, skipn_exact by exact Lf. split.
  - repeat split; auto; try apply F2. rewrite app_length. lia.
  - rewrite rsum_app, rsum_cons, F3, IH2. reflexivity.
Qed.
Lemma merit_rows_single x ms ts : Forall (fun t => length (term_rows x t) = 1%nat) ts -> forall k,
  map (fun mr => rgap x (snd mr)) (merit_rows x ms k ts) = map (lin_violation x x) ts.
Proof.
  induction 1 as [|t ts Ht _ IH]; intros k; [reflexivity|]. cbn [merit_rows map]. rewrite map_app, IH. assert (E : map (fun mr => rgap x (snd mr)) (map (pair (nth k ms 0)) (term_rows x t)) = [lin_violation x x t]).
  { unfold lin_violation. destruct (term_rows x t) as [|r [|? ?]]; try discriminate. cbn [map snd]. rewrite rsum_cons, rsum_nil, Rplus_0_r. reflexivity. }
  rewrite E. reflexivity.
Qed.
(** Without penalty costs, with one row in every constraint set and no row above its upper bound, the start satisfies the
    rows of the QP, and its slack variables add up to the violations. *)
Theorem C112_feasible_partial : forall p : qp R, reach p -> q_init p = true -> all_usable p ->
  hinges (q_src p) = [] -> absolutes (q_src p) = [] -> Forall (fun t => cm_rows (tm_at t (q_x p)) = 1%nat) (merits (q_src p)) ->
  Forall (fun t => Forall (fun r => forall u, b_hi (r_bnd r) = Some u -> linear (q_x p) r (q_x p) <= u) (term_rows (q_x p) t)) (merits (q_src p)) ->
  exists p' z, convexify sqrt p = Val p' /\ warm_start (d_cols (qp_data p')) p' = Val (q_x p ++ z) /\
    rsum (fun v => v) z = rsum (lin_violation (q_x p) (q_x p)) (merits (q_src p)) /\ (in_box (q_cvx p') (q_x p) -> qp_feasible (q_cvx p') (q_x p ++ z)).
Proof.
  intros p Re H U Nh Na Fs Fu. pose proof (reach_inv p Re) as I. destruct (convexify_spec p I H U) as (p' & E & C). exists p', (flat_map (fun mr => fill (q_x p) (snd mr)) (qp_rows p)). split; [exact E|].
  pose proof (cv_keep _ _ C) as (K1 & _). pose proof (cv_obj _ _ C) as (q & (_ & _ & _ & Lq & _) & _ & Eg & _). pose proof (all_rows_typed p U) as T.
  assert (Lg : d_cols (qp_data p') = (length (q_x p) + length (slack_costs (qp_rows p)))%nat) by (cbn [qp_data d_cols]; rewrite Eg, app_length, Lq; reflexivity).
  assert (Ql : qp_rows p = merit_rows (q_x p) (q_merit p) 0 (merits (q_src p))) by (unfold qp_rows; rewrite Nh, Na; reflexivity).
  assert (Fl : Forall (fun t => length (term_rows (q_x p) t) = 1%nat) (merits (q_src p))).
  { destruct U as (_ & _ & _ & U4). rewrite Forall_forall in *. intros t Ht. rewrite term_rows_length; [apply Fs, Ht|apply (U4 t Ht)]. }
  assert (Vl : map (lin_violation (q_x p) (q_x p)) (merits (q_src p)) = map (fun mr => rgap (q_x p) (snd mr)) (qp_rows p)) by (rewrite Ql; symmetry; apply merit_rows_single, Fl).
  assert (Fg : Forall (fun mr => typed (snd mr) /\ forall u, b_hi (r_bnd (snd mr)) = Some u -> linear (q_x p) (snd mr) (q_x p) <= u) (qp_rows p)).
  { assert (F2 : Forall (fun mr => forall u, b_hi (r_bnd (snd mr)) = Some u -> linear (q_x p) (snd mr) (q_x p) <= u) (qp_rows p)).
    { rewrite Ql. apply merit_rows_forall. intros m t r Ht Hr. rewrite Forall_forall in Fu. specialize (Fu t Ht). rewrite Forall_forall in Fu. apply (Fu r Hr). }
    rewrite Forall_forall in *. intros mr Hm. split; [apply (T mr Hm)|apply (F2 mr Hm)]. }
  destruct (fill_feas (q_x p) (qp_rows p) Fg) as (S1 & S2).
  assert (Lf : length (flat_map (fun mr => fill (q_x p) (snd mr)) (qp_rows p)) = length (slack_costs (qp_rows p))).
  { unfold slack_costs. clear. induction (qp_rows p) as [|mr l IH]; [reflexivity|]. cbn [flat_map]. rewrite !app_length, IH. unfold fill. rewrite !map_length. reflexivity. }
  split; [|split].
  - rewrite Lg. unfold warm_start. rewrite K1, (proj2 (Nat.leb_le _ _)) by lia. replace (length (q_x p) + length (slack_costs (qp_rows p)) - length (q_x p))%nat with (length (slack_costs (qp_rows p))) by lia.
    destruct (Nat.ltb_spec 0 (length (slack_costs (qp_rows p)))) as [Hn|Hn].
    + pose proof (eval_violations_conv p p' I H U C (q_x p) [] eq_refl) as V. rewrite app_nil_r in V. rewrite V. cbn [rbind]. rewrite Vl, (cv_mat _ _ C).
      apply warm_rows_fill; [|lia]. eapply Forall_impl; [|exact T]. cbn. tauto.
    + assert (Z0 : length (slack_costs (qp_rows p)) = 0%nat) by lia. rewrite Z0 in Lf |- *. destruct (flat_map _ _); [reflexivity|discriminate].
  - rewrite S2. transitivity (rsum (fun v => v) (map (lin_violation (q_x p) (q_x p)) (merits (q_src p)))); [rewrite Vl|]; rewrite rsum_map; reflexivity.
  - intros B. apply (feasible_split p p'); auto.
Qed.
Print Assumptions C112_feasible_partial.

(** problems whose variables are not bounded, with the hinge costs [hs] and the constraint sets [ks] *)
Definition sets (hs ks : list (term R)) : sources R := {| s_sq := []; s_dsq := []; s_hinge := hs; s_dhinge := []; s_abs := []; s_dabs := []; s_cnt := ks; s_dcnt := [] |}.
Definition prob (x : list R) (hs ks : list (term R)) : qp R := setup (with_src (qp_new x (map (fun _ => free) x)) (sets hs ks)).
Lemma prob_reach x hs ks : Forall (fun t => wf_term t /\ tm_dyn t = false /\ forallb is_ineq (cm_bounds (tm_at t x)) = true) hs -> Forall (fun t => wf_term t /\ tm_dyn t = false) ks -> reach (prob x hs ks).
Proof.
  intros Fh Fk. unfold prob. apply reach_setup; [|reflexivity].
  assert (P : reach (with_src (qp_new x (map (fun _ => free) x)) (sets hs []))).
  { clear Fk. induction hs as [|h hs IH] using rev_ind.
    - exact (reach_new x (map (fun _ => free) x) ltac:(apply map_length)).
    - apply Forall_app in Fh as (Fh & F1). apply Forall_cons_iff in F1 as ((W & D & B) & _). eapply reach_cost with (t := h) (k := PHinge); [apply IH, Fh|exact W|].
      unfold add_cost. cbn [with_src q_x qp_new q_src sets s_hinge s_dhinge s_sq s_dsq s_abs s_dabs s_cnt s_dcnt]. rewrite B, D. reflexivity. }
  clear Fh. induction ks as [|k ks IH] using rev_ind; [exact P|]. apply Forall_app in Fk as (Fk & F1). apply Forall_cons_iff in F1 as ((W & D) & _).
  pose proof (reach_cnt _ k (IH Fk) W) as Q. unfold add_constraint in Q. rewrite D in Q. exact Q.
Qed.
Lemma prob_usable x hs ks : Forall (usable IHinge (length x) x) hs -> Forall (usable IMerit (length x) x) ks -> all_usable (prob x hs ks).
Proof.
  intros Fh Fk. destruct (setup_keeps (with_src (qp_new x (map (fun _ => free) x)) (sets hs ks))) as (E1 & E2 & _). unfold all_usable, prob. rewrite E1, E2.
  unfold objectives, hinges, absolutes, merits. cbn [with_src q_src q_x qp_new sets s_sq s_dsq s_hinge s_dhinge s_abs s_dabs s_cnt s_dcnt app]. rewrite !app_nil_r. auto.
Qed.
Lemma prob_keeps x hs ks : q_x (prob x hs ks) = x /\ q_src (prob x hs ks) = sets hs ks /\ q_bnds (prob x hs ks) = map (fun _ => free) x /\ q_init (prob x hs ks) = true.
Proof. destruct (setup_keeps (with_src (qp_new x (map (fun _ => free) x)) (sets hs ks))) as (E1 & E2 & E3 & E4 & _). auto. Qed.
Lemma prob_box x hs ks p' : reach (prob x hs ks) -> convexified (prob x hs ks) p' -> in_box (q_cvx p') x.
Proof.
  intros Re C. destruct (prob_keeps x hs ks) as (E1 & E2 & E3 & E4). apply (in_box_conv _ p' (reach_inv _ Re) E4 C).
  - rewrite E3. apply Forall_map, Forall_forall. intros. apply proper_free.
  - rewrite E1, E3. split; [reflexivity|]. intros i Hi. rewrite (nth_map_d (fun _ => free) x i free 0) by exact Hi. split; [apply free_inside|]. rewrite closest_free, Rminus_diag_eq, Rabs_R0 by reflexivity.
    assert (B : q_box (prob x hs ks) = repeat (ndec 1 (-1)) (length x)).
    { unfold prob, setup, update. cbn [q_init q_lay q_prev q_ndyn q_x q_tab l_dyn]. match goal with |- context [if ?b then _ else _] => destruct b end; reflexivity. }
    rewrite B. rewrite (nth_indep _ 0 (ndec 1 (-1))) by (rewrite repeat_length; exact Hi). rewrite nth_repeat. cbn [ndec R_Num]. unfold Rdec. change (Pos.to_nat 1) with 1%nat. lra.
Qed.
Definition at_most (v : R) : bnd R := {| b_lo := None; b_hi := Some v |}.
Definition over (b : bnd R) : term R := row_set false 1 [(0%nat, 1)] 0 b.
Lemma proper_most v : proper (at_most v).
Proof. intros l u [=]. Qed.
Lemma over_linear b v : linear [v] {| r_jac := [(0%nat, 1)]; r_val := srow_dot [(0%nat, 1)] [v] + 0; r_bnd := b; r_w := 1 |} [v] = v.
Proof. unfold linear, thr_row. cbn [r_jac r_val map fst snd]. thr_num. rewrite !srow_dot_R, !rsum_cons, !rsum_nil. cbn [fst snd nth]. ring. Qed.
Lemma viol_most u v : u <= v -> bound_viol (at_most u) v = v - u.
Proof.
  intros L. rewrite bound_viol_abs. destruct (bound_cases (at_most u) v (proper_most u)) as [(lo & [=] & _)|[(hi & [= <-] & Hu & Eu & _)|((_ & B) & Eu & _)]]; rewrite Eu.
  - rewrite Rabs_right by lra. reflexivity.
  - specialize (B u eq_refl). rewrite Rabs_R0. lra.
Qed.
(** x >= 1 and y = 2 at (0, 0): both below their bounds *)
Example C112_feasible_ex : exists p' z, let p := prob [0; 0] [] [over (at_least 1); row_set false 1 [(1%nat, 1)] 0 (equal_to 2)] in
  convexify sqrt p = Val p' /\ warm_start (d_cols (qp_data p')) p' = Val ([0; 0] ++ z) /\ rsum (fun v => v) z = 3 /\ qp_feasible (q_cvx p') ([0; 0] ++ z).
Proof.
  set (ks := [over (at_least 1); row_set false 1 [(1%nat, 1)] 0 (equal_to 2)]).
  assert (Re : reach (prob [0; 0] [] ks)) by (apply prob_reach; [constructor|]; repeat apply Forall_cons; try apply Forall_nil; split; try reflexivity; apply row_set_wf).
  assert (U : all_usable (prob [0; 0] [] ks)).
  { apply prob_usable; [constructor|]. repeat apply Forall_cons; try apply Forall_nil; apply row_set_usable; try apply proper_least; try apply proper_equal; cbn [role_type]; rewrite ?type_equal; auto; repeat constructor. }
  destruct (prob_keeps [0; 0] [] ks) as (E1 & E2 & E3 & E4).
  destruct (C112_feasible_partial (prob [0; 0] [] ks) Re E4 U) as (p' & z & G1 & G2 & G3 & G4); rewrite ?E1, ?E2; try reflexivity.
  - cbn. repeat apply Forall_cons; try apply Forall_nil; reflexivity.
  - cbn [merits sets s_cnt s_dcnt app ks]. apply Forall_cons; [|apply Forall_cons; [|apply Forall_nil]]; unfold over; rewrite row_set_rows; (apply Forall_cons; [|apply Forall_nil]); cbn [r_bnd b_hi at_least equal_to]; intros u [= <-].
    unfold linear, thr_row. cbn [r_jac r_val map fst snd]. thr_num. rewrite !srow_dot_R, !rsum_cons, !rsum_nil. cbn [fst snd nth]. lra.
  - exists p', z. cbv zeta. rewrite E1 in *. split; [exact G1|]. split; [exact G2|]. split.
    + rewrite G3, E2. cbn [merits sets s_cnt s_dcnt app ks]. rewrite !rsum_cons, rsum_nil. unfold lin_violation, over. rewrite !row_set_rows, !rsum_cons, !rsum_nil. cbn [r_bnd]. rewrite viol_least, viol_equal.
      unfold linear, thr_row. cbn [r_jac r_val map fst snd]. repeat thr_num. rewrite !srow_dot_R, !rsum_cons, !rsum_nil. cbn [fst snd nth]. unfold Rmax, Rabs. destruct (Rle_dec _ _); destruct (Rcase_abs _); lra.
    + apply G4. destruct (convexify_spec _ (reach_inv _ Re) E4 U) as (p1 & G5 & C). rewrite G1 in G5. injection G5 as <-. apply (prob_box _ _ _ _ Re C).
Qed.
(** A row above its upper bound: its slack variable enters with -1, so that the start leaves it at zero. *)
Theorem C112_upper_refuted : exists (p p' : qp R) z, reach p /\ q_init p = true /\ all_usable p /\ hinges (q_src p) = [] /\ absolutes (q_src p) = [] /\
  Forall (fun t => cm_rows (tm_at t (q_x p)) = 1%nat) (merits (q_src p)) /\ convexify sqrt p = Val p' /\ warm_start (d_cols (qp_data p')) p' = Val (q_x p ++ z) /\
  in_box (q_cvx p') (q_x p) /\ Forall (fun v => v = 0) z /\ ~ qp_feasible (q_cvx p') (q_x p ++ z).
Proof.
  set (p := prob [1] [] [over (at_most 0)]).
  assert (Re : reach p) by (apply prob_reach; [constructor|]; repeat apply Forall_cons; try apply Forall_nil; split; try reflexivity; apply row_set_wf).
  assert (U : all_usable p).
  { apply prob_usable; [constructor|]. repeat apply Forall_cons; try apply Forall_nil. apply row_set_usable; [repeat constructor|apply proper_most|right; right; reflexivity]. }
  destruct (prob_keeps [1] [] [over (at_most 0)]) as (E1 & E2 & E3 & E4). fold p in E1, E2, E3, E4. pose proof (reach_inv _ Re) as I.
  destruct (convexify_spec p I E4 U) as (p' & E & C). exists p, p', [0]. pose proof (prob_box _ _ _ _ Re C) as B.
  assert (Q : exists m, qp_rows p = [(m, {| r_jac := [(0%nat, 1)]; r_val := srow_dot [(0%nat, 1)] [1] + 0; r_bnd := at_most 0; r_w := 1 |})]) by (eexists; unfold qp_rows; rewrite E1, E2; reflexivity).
  destruct Q as (m & Q). pose proof (cv_keep _ _ C) as (K1 & _). pose proof (cv_obj _ _ C) as (q & (_ & _ & _ & Lq & _) & _ & Eg & _).
  split; [exact Re|]. split; [exact E4|]. split; [exact U|]. rewrite E1, E2. split; [reflexivity|]. split; [reflexivity|]. split; [repeat constructor|]. split; [exact E|]. split; [|split; [exact B|split; [repeat constructor|]]].
  - assert (Lg : d_cols (qp_data p') = 2%nat) by (cbn [qp_data d_cols]; rewrite Eg, app_length, Lq, E1, Q; reflexivity). rewrite Lg. unfold warm_start. rewrite K1, E1. cbn [length Nat.leb Nat.sub Nat.ltb].
    pose proof (eval_violations_conv p p' I E4 U C (q_x p) [] eq_refl) as V. rewrite app_nil_r, E1 in V. rewrite V, E2. cbn [rbind]. rewrite (cv_mat _ _ C), Q, E1. cbn [length].
    pose proof (warm_rows_fill 1 [1] [(m, {| r_jac := [(0%nat, 1)]; r_val := srow_dot [(0%nat, 1)] [1] + 0; r_bnd := at_most 0; r_w := 1 |})]
      (map (fun i => [(i, 1)]) (seq 0 (1 + length (slack_costs [(m, {| r_jac := [(0%nat, 1)]; r_val := srow_dot [(0%nat, 1)] [1] + 0; r_bnd := at_most 0; r_w := 1 |})])))) ltac:(repeat constructor) [1] 0%nat eq_refl) as W.
    cbn [map snd] in W. change (merits (sets [] [over (at_most 0)])) with [over (at_most 0)]. cbn [map].
    assert (G : rgap [1] {| r_jac := [(0%nat, 1)]; r_val := srow_dot [(0%nat, 1)] [1] + 0; r_bnd := at_most 0; r_w := 1 |} = 1) by (unfold rgap; rewrite over_linear; cbn [r_bnd]; rewrite viol_most by lra; ring).
    assert (Vg : lin_violation [1] [1] (over (at_most 0)) = 1) by (unfold lin_violation, over; rewrite row_set_rows, rsum_cons, rsum_nil, over_linear; cbn [r_bnd]; rewrite viol_most by lra; ring).
    rewrite Vg. rewrite G in W. etransitivity; [exact W|]. cbn [flat_map app]. unfold fill. cbn [snd]. rewrite G. unfold signs. cbn [snd r_bnd type_of at_most b_lo b_hi slack_signs map app]. do 3 f_equal. rnum. unfold none_. rnum.
    apply Rmax_left. replace (1 / - (1)) with (- (1)) by field. lra.
  - intros F. apply (feasible_split p p' [1] [0] C I E4 U) in F; [|rewrite E1; reflexivity|rewrite Q; reflexivity]. destruct F as (_ & F). rewrite Q, E1 in F. cbn [sfeas snd] in F. destruct F as (_ & _ & (_ & F) & _).
    specialize (F 0 eq_refl). rewrite over_linear in F. unfold signs in F. cbn [r_bnd type_of at_most b_lo b_hi slack_signs length firstn] in F. unfold vdot in F. cbn in F. rnum. lra.
Qed.
Print Assumptions C112_upper_refuted.
Lemma warm_rows_few n : forall vs mat (x0 : list R), (length mat < length vs)%nat -> Forall (Forall (fun e => (fst e < length x0)%nat)) mat -> warm_rows n vs mat x0 = Bad.
Proof.
  induction vs as [|v vs IH]; intros [|r mat] x0 L F; cbn [length] in L; try lia; [reflexivity|]. apply Forall_cons_iff in F as (Fr & F). cbn [warm_rows].
  destruct (warm_row_shape n v r x0 Fr) as (x1 & E1 & L1 & _). rewrite E1. cbn [rbind]. apply IH; [lia|]. rewrite L1. exact F.
Qed.
(** There can be more constraint sets than rows: then a row that does not exist is read. *)
Theorem C112_range_refuted : exists p p' : qp R, reach p /\ q_init p = true /\ all_usable p /\ convexify sqrt p = Val p' /\ warm_start (d_cols (qp_data p')) p' = Bad.
Proof.
  set (ks := [over (at_least 0); empty_set; empty_set; empty_set]). set (p := prob [1] [] ks).
  assert (Re : reach p) by (apply prob_reach; [constructor|]; repeat apply Forall_cons; try apply Forall_nil; split; try reflexivity; try apply row_set_wf; apply empty_wf).
  assert (U : all_usable p).
  { apply prob_usable; [constructor|]. repeat apply Forall_cons; try apply Forall_nil; try apply empty_usable. apply row_set_usable; [repeat constructor|apply proper_least|right; left; reflexivity]. }
  destruct (prob_keeps [1] [] ks) as (E1 & E2 & E3 & E4). fold p in E1, E2, E3, E4. pose proof (reach_inv _ Re) as I.
  destruct (convexify_spec p I E4 U) as (p' & E & C). exists p, p'. split; [exact Re|]. split; [exact E4|]. split; [exact U|]. split; [exact E|].
  assert (Q : exists m, qp_rows p = [(m, {| r_jac := [(0%nat, 1)]; r_val := srow_dot [(0%nat, 1)] [1] + 0; r_bnd := at_least 0; r_w := 1 |})]) by (eexists; unfold qp_rows; rewrite E1, E2; reflexivity).
  destruct Q as (m & Q). pose proof (cv_keep _ _ C) as (K1 & _). pose proof (cv_obj _ _ C) as (q & (_ & _ & _ & Lq & _) & _ & Eg & _).
  assert (Lg : d_cols (qp_data p') = 2%nat) by (cbn [qp_data d_cols]; rewrite Eg, app_length, Lq, E1, Q; reflexivity). rewrite Lg. unfold warm_start. rewrite K1, E1. cbn [length Nat.leb Nat.sub Nat.ltb].
  pose proof (eval_violations_conv p p' I E4 U C (q_x p) [] eq_refl) as V. rewrite app_nil_r, E1 in V. rewrite V, E2. cbn [rbind]. rewrite (cv_mat _ _ C), Q, E1.
  apply warm_rows_few; [cbn; lia|]. cbn. repeat (apply Forall_cons || apply Forall_nil); cbn; lia.
Qed.
Print Assumptions C112_range_refuted.
(** The violations are counted by constraint set, the rows of the QP begin with those of the penalty costs: the violation of
    the constraint y >= 1 is given to the slack variable of the cost, whose row is satisfied. *)
Theorem C112_alignment_refuted : exists (p p' : qp R), reach p /\ q_init p = true /\ all_usable p /\ absolutes (q_src p) = [] /\
  Forall (fun t => cm_rows (tm_at t (q_x p)) = 1%nat) (hinges (q_src p) ++ merits (q_src p)) /\
  Forall (fun t => Forall (fun r => forall u, b_hi (r_bnd r) = Some u -> linear (q_x p) r (q_x p) <= u) (term_rows (q_x p) t)) (hinges (q_src p) ++ merits (q_src p)) /\
  convexify sqrt p = Val p' /\ in_box (q_cvx p') (q_x p) /\ warm_start (d_cols (qp_data p')) p' = Val (q_x p ++ [1; 0]) /\
  map (lin_violation (q_x p) (q_x p)) (hinges (q_src p) ++ merits (q_src p)) = [0; 1] /\
  ~ qp_feasible (q_cvx p') (q_x p ++ [1; 0]) /\ qp_feasible (q_cvx p') (q_x p ++ [0; 1]).
Proof.
  set (h := over (at_least 0)). set (k := row_set false 1 [(1%nat, 1)] 0 (at_least 1)). set (p := prob [0; 0] [h] [k]).
  assert (Re : reach p) by (apply prob_reach; repeat apply Forall_cons; try apply Forall_nil; repeat split; try reflexivity; apply row_set_wf).
  assert (U : all_usable p).
  { apply prob_usable; repeat apply Forall_cons; try apply Forall_nil; (apply row_set_usable; [apply Forall_cons; [cbn; lia|apply Forall_nil]|apply proper_least|]); [left|right; left]; reflexivity. }
  destruct (prob_keeps [0; 0] [h] [k]) as (E1 & E2 & E3 & E4). fold p in E1, E2, E3, E4. pose proof (reach_inv _ Re) as I.
  destruct (convexify_spec p I E4 U) as (p' & E & C). exists p, p'. pose proof (prob_box _ _ _ _ Re C) as B.
  set (r0 := {| r_jac := [(0%nat, 1)]; r_val := srow_dot [(0%nat, 1)] [0; 0] + 0; r_bnd := at_least 0; r_w := 1 |}). set (r1 := {| r_jac := [(1%nat, 1)]; r_val := srow_dot [(1%nat, 1)] [0; 0] + 0; r_bnd := at_least 1; r_w := 1 |}).
  assert (Q : exists m m', qp_rows p = [(m, r0); (m', r1)]) by (eexists _, _; unfold qp_rows; rewrite E1, E2; reflexivity).
  assert (L0 : linear [0; 0] r0 [0; 0] = 0) by (unfold linear, thr_row, r0; cbn [r_jac r_val map fst snd]; thr_num; rewrite !srow_dot_R, !rsum_cons, !rsum_nil; cbn [fst snd nth]; ring).
  assert (L1 : linear [0; 0] r1 [0; 0] = 0) by (unfold linear, thr_row, r1; cbn [r_jac r_val map fst snd]; thr_num; rewrite !srow_dot_R, !rsum_cons, !rsum_nil; cbn [fst snd nth]; ring).
  assert (V0 : lin_violation [0; 0] [0; 0] h = 0) by (unfold lin_violation, h, over; rewrite row_set_rows, rsum_cons, rsum_nil; fold r0; rewrite L0; cbn [r_bnd r0]; rewrite viol_least, Rmax_left by lra; ring).
  assert (V1 : lin_violation [0; 0] [0; 0] k = 1) by (unfold lin_violation, k; rewrite row_set_rows, rsum_cons, rsum_nil; fold r1; rewrite L1; cbn [r_bnd r1]; rewrite viol_least, Rmax_right by lra; ring).
  destruct Q as (m & m' & Q). pose proof (cv_keep _ _ C) as (K1 & _). pose proof (cv_obj _ _ C) as (q & (_ & _ & _ & Lq & _) & _ & Eg & _).
  split; [exact Re|]. split; [exact E4|]. split; [exact U|]. rewrite E1, E2. change (hinges (sets [h] [k]) ++ merits (sets [h] [k])) with [h; k]. split; [reflexivity|]. split; [repeat constructor|].
  split; [repeat (apply Forall_cons || apply Forall_nil); cbn [r_bnd b_hi at_least]; intros u [=]|]. split; [exact E|]. split; [exact B|]. split.
  - assert (Lg : d_cols (qp_data p') = 4%nat) by (cbn [qp_data d_cols]; rewrite Eg, app_length, Lq, E1, Q; reflexivity). rewrite Lg. unfold warm_start. rewrite K1, E1. cbn [length Nat.leb Nat.sub Nat.ltb].
    pose proof (eval_violations_conv p p' I E4 U C (q_x p) [] eq_refl) as V. rewrite app_nil_r, E1 in V. rewrite V, E2. cbn [rbind]. change (merits (sets [h] [k])) with [k]. cbn [map]. rewrite V1, (cv_mat _ _ C), Q, E1.
    cbn [length placed snd app warm_rows]. rewrite warm_row_skip by (repeat constructor). change (signs r0) with [1]. pose proof (warm_row_fill 2 1 [1] ltac:(repeat constructor) [0; 0] [0] [0] ltac:(cbn; lia) eq_refl) as W. cbn [app repeat] in *. change (combine (seq (2 + 0) (length [1])) [1]) with (combine (seq (length [0; 0]) (length [1])) [1]).
    etransitivity; [apply (f_equal (fun w => rbind w _)); exact W|]. cbn [rbind warm_rows map app]. do 4 f_equal. rewrite Rmax_right; [field|]. unfold Rdiv. rewrite Rinv_1. lra.
  - split; [cbn [map]; rewrite V0, V1; reflexivity|].
    assert (S : forall a b, qp_feasible (q_cvx p') ([0; 0] ++ [a; b]) <-> (0 <= a /\ 0 <= b /\ 1 <= b)).
    { intros a b. rewrite (feasible_split p p' [0; 0] [a; b] C I E4 U) by (rewrite ?E1, ?Q; reflexivity). rewrite Q, E1. cbn [sfeas snd]. rewrite L0, L1. change (signs r0) with [1]. change (signs r1) with [1]. cbn [length firstn skipn]. unfold vdot. rewrite !vsum_R. cbn [combine map Rsum fst snd r_bnd r0 r1]. rnum. split.
      - intros (_ & _ & Ha & _ & _ & Hb & (Ib & _) & _). inversion Ha; subst. inversion Hb; subst. specialize (Ib 1 eq_refl). lra.
      - intros (Ha & Hb & Hc). split; [exact B|]. repeat split; cbn [length]; try lia; try (apply Forall_cons; [assumption|apply Forall_nil]); try (intros ? [= <-]; lra); intros ? [=]. }
    split; [rewrite S|apply S]; lra.
Qed.
Print Assumptions C112_alignment_refuted.
Example C112_start_ex : exists p' z, convexify sqrt mixed = Val p' /\ warm_start (d_cols (qp_data p')) p' = Val ([1; 0] ++ z) /\ Forall (fun v => 0 <= v) z.
Proof.
  destruct (C112_start mixed mixed_reach eq_refl mixed_usable) as (p' & E & G). destruct (convexify_spec mixed (reach_inv _ mixed_reach) eq_refl mixed_usable) as (p1 & E1 & C). rewrite E in E1. injection E1 as <-.
  destruct G as (z & G1 & _ & G2).
  - rewrite (cv_mat _ _ C), app_length, map_length, seq_length. change (length (merits (q_src mixed))) with 2%nat. change (length (q_x mixed)) with 2%nat. lia.
  - exists p', z. auto.
Qed.
