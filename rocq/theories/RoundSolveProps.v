(** * C130: the passes of the SQP through OSQP, qpOASES and BPMPD *)
From Coq Require Import List ZArith Bool Arith Lia Reals Lra.
From Verif Require Import Num NumFacts RSums Common ScoExprModel ScoExprProofs BackendModel BackendSpec BackendProofs BackendProps GurobiModel GurobiSpec GurobiRoundProofs GurobiRoundProps
  OsqpReuseProps SolveModel SolveSpec SolveProofs SolveProps RoundSolveSpec RoundSolveProofs.
Import ListNotations.
Local Open Scope R_scope.

(** However many passes were made before, at every QP of every pass the problem in the backend is that of the pass: the problem's own variables and constraints and
    those of the pass, with the bounds just set, and the objective of the pass. *)
Theorem C130_problem :
  forall (inf : R) vars cnts done r l0 lo hi p l2 (A : Type) (run : list R -> A), passes_ok inf vars cnts done r -> r_solves r = l0 ++ (lo, hi, p) :: l2 ->
    let n := length vars in let k := (n + made_v done)%nat in let cs := calls_of (translate run 0 (up_to vars cnts done r l0 lo hi)) in
    well_posed inf cs (r_obj r) /\ live_v (vfacts inf cs) = seq 0 n ++ seq k (length (r_vars r)) /\
    forall eps X, fits_problem inf eps cs X <-> fits_pass inf eps k cnts r lo hi X.
Proof.
  intros inf vars cnts done r l0 lo hi p l2 A run (Pi & W & Rd & Ro & C1 & C2) Es. cbv zeta. apply (pass_problem vars cnts done r l0 l2 lo hi p W Rd Ro Es inf Pi).
  apply Forall_app. split; [exact C1|]. apply C2. left. reflexivity.
Qed.
Print Assumptions C130_problem.

(** the QPs solved on the way *)
Lemma qps_before inf vars cnts done r l0 lo hi p l2 {A} (run : list R -> A) pre a post : passes_ok inf vars cnts done r -> r_solves r = l0 ++ (lo, hi, p) :: l2 ->
  translate run 0 (up_to vars cnts done r l0 lo hi) = pre ++ Solve a :: post -> (exists x, a = run x) /\ exists q, well_posed inf (calls_of pre) q.
Proof.
  intros P Es E. apply translate_split in E as (cs1 & x & cs2 & E & -> & ->). split; [exists x; reflexivity|].
  unfold up_to in E. apply split_without in E as (m & -> & E); [|apply setup_without].
  pose proof P as (Pi & W & Rd & Ro & C1 & C2). apply split_app in E as [(m1 & E)|(m1 & -> & E)].
  - destruct (rounds_split _ _ _ _ _ _ _ Rd E) as (d & r1 & l1 & lo1 & hi1 & l3 & -> & G1 & G2 & G3 & G4).
    destruct (pass_problem vars cnts d r1 l1 l3 lo1 hi1 x W G1 G2 G3 inf Pi) with (A := A) (run := run) as [K _]; [|eexists; exact K].
    apply Forall_app. split; [exact C1|]. apply C2. right. exact G4.
  - assert (E' : begin_round (length vars) (cut r (l0 ++ [(lo, hi, p)])) = m1 ++ GOptimize x :: (cs2 ++ [GOptimize p])) by (rewrite cut_round, E, <- app_assoc; reflexivity).
    apply begin_split in E' as (l1 & lo1 & hi1 & l3 & G & ->). cbn [cut r_solves] in G.
    assert (Es1 : r_solves r = l1 ++ (lo1, hi1, x) :: (l3 ++ l2)).
    { rewrite Es. replace (l0 ++ (lo, hi, p) :: l2) with ((l0 ++ [(lo, hi, p)]) ++ l2) by (rewrite <- app_assoc; reflexivity). rewrite G, <- app_assoc. reflexivity. }
    destruct (C130_problem inf vars cnts done r l1 lo1 hi1 x _ A run P Es1) as [K _]. eexists. exact K.
Qed.

(** what holds at the QPs carries a program through *)
Lemma bcalls_app (inf : R) a : forall s b, bcalls inf s (a ++ b) = match bcalls inf s a with Some s' => bcalls inf s' b | None => None end.
Proof. induction a as [|c a IH]; intros s b; [reflexivity|]. cbn [app bcalls]. destruct (bcall inf s c); [apply IH|reflexivity]. Qed.
Lemma one_more {A} inf (ps : list (pstep A)) c b : sane inf [] [] (calls_of (ps ++ [Call c])) -> bcalls inf empty_backend (calls_of ps) = Some b -> exists b', bcall inf b c = Some b'.
Proof.
  intros Sa E. destruct (sim_history inf _ Sa) as (b' & E' & _). rewrite calls_app, bcalls_app, E in E'. cbn [calls_of map bcalls] in E'.
  destruct (bcall inf b c) as [b1|]; [exists b1; reflexivity|discriminate].
Qed.
Lemma osqp_steps_app inf sz up warm a : forall (s : omodel R) b, osqp_steps inf sz up warm s (a ++ b) = obind (osqp_steps inf sz up warm s a) (fun s' => osqp_steps inf sz up warm s' b).
Proof. induction a as [|p a IH]; intros s b; [reflexivity|]. cbn [app osqp_steps]. destruct (osqp_step inf sz up warm s p); cbn [obind]; [apply IH|reflexivity|reflexivity]. Qed.
Lemma qpoases_steps_app (Q : sqproblem R) inf a : forall (s : qmodel Q) b, qpoases_steps Q inf s (a ++ b) = obind (qpoases_steps Q inf s a) (fun s' => qpoases_steps Q inf s' b).
Proof. induction a as [|p a IH]; intros s b; [reflexivity|]. cbn [app qpoases_steps]. destruct (qpoases_step Q inf s p); cbn [obind]; [apply IH|reflexivity|reflexivity]. Qed.
Lemma bpmpd_steps_app inf a : forall (s : bmodel R) b, bpmpd_steps inf s (a ++ b) = obind (bpmpd_steps inf s a) (fun s' => bpmpd_steps inf s' b).
Proof. induction a as [|p a IH]; intros s b; [reflexivity|]. cbn [app bpmpd_steps]. destruct (bpmpd_step inf s p); cbn [obind]; [apply IH|reflexivity|reflexivity]. Qed.

Lemma osqp_progress inf eps delta sz warm ps : sane inf [] [] (calls_of ps) ->
  (forall pre r post, ps = pre ++ Solve r :: post -> osqp_honest inf eps delta r /\ exists q, well_posed inf (calls_of pre) q) ->
  exists s, osqp_steps inf sz false warm (empty_omodel (T := R)) ps = Ok s.
Proof.
  induction ps as [|p ps IH] using rev_ind; intros Sa K; [eexists; reflexivity|].
  assert (Sa' : sane inf [] [] (calls_of ps)) by (rewrite calls_app in Sa; apply sane_app in Sa; apply Sa).
  destruct (IH Sa') as (s & E). { intros pre r post ->. apply (K pre r (post ++ [p])). rewrite <- app_assoc. reflexivity. }
  rewrite osqp_steps_app, E. cbn [obind osqp_steps]. destruct p as [c|r]; cbn [osqp_step].
  - destruct (one_more inf ps c (om_b s) Sa) as (b' & Eb). { apply osqp_steps_b in E. exact E. } rewrite Eb. eexists. reflexivity.
  - destruct (K ps r [] eq_refl) as (Hr & q & WP). destruct (C128_osqp inf eps delta sz warm r ps s q WP Hr E) as (s' & st & Eo & _). rewrite Eo. eexists. reflexivity.
Qed.
Lemma qpoases_progress (Q : sqproblem R) inf eps delta ps : sane inf [] [] (calls_of ps) -> qpoases_honest inf eps delta Q ->
  (forall pre r post, ps = pre ++ Solve r :: post -> exists q, well_posed inf (calls_of pre) q) ->
  exists s, qpoases_steps Q inf (empty_qmodel Q) ps = Ok s.
Proof.
  induction ps as [|p ps IH] using rev_ind; intros Sa Hr K; [eexists; reflexivity|].
  assert (Sa' : sane inf [] [] (calls_of ps)) by (rewrite calls_app in Sa; apply sane_app in Sa; apply Sa).
  destruct (IH Sa' Hr) as (s & E). { intros pre r post ->. apply (K pre r (post ++ [p])). rewrite <- app_assoc. reflexivity. }
  rewrite qpoases_steps_app, E. cbn [obind qpoases_steps]. destruct p as [c|r]; cbn [qpoases_step].
  - destruct (one_more inf ps c (qm_b Q s) Sa) as (b' & Eb). { apply qpoases_steps_b in E. exact E. } rewrite Eb. eexists. reflexivity.
  - destruct (K ps r [] eq_refl) as (q & WP). destruct (C128_qpoases Q inf eps delta ps s q WP Hr E) as (s' & st & Eo & _). rewrite Eo. eexists. reflexivity.
Qed.
Lemma bpmpd_progress inf eps delta ps : sane inf [] [] (calls_of ps) ->
  (forall pre r post, ps = pre ++ Solve r :: post -> bpmpd_honest inf eps delta r /\ exists q, well_posed inf (calls_of pre) q) ->
  exists s, bpmpd_steps inf (empty_bmodel (T := R)) ps = Ok s.
Proof.
  induction ps as [|p ps IH] using rev_ind; intros Sa K; [eexists; reflexivity|].
  assert (Sa' : sane inf [] [] (calls_of ps)) by (rewrite calls_app in Sa; apply sane_app in Sa; apply Sa).
  destruct (IH Sa') as (s & E). { intros pre r post ->. apply (K pre r (post ++ [p])). rewrite <- app_assoc. reflexivity. }
  rewrite bpmpd_steps_app, E. cbn [obind bpmpd_steps]. destruct p as [c|r]; cbn [bpmpd_step].
  - destruct (one_more inf ps c (bm_b s) Sa) as (b' & Eb). { apply bpmpd_steps_b in E. exact E. } rewrite Eb. eexists. reflexivity.
  - destruct (K ps r [] eq_refl) as (Hr & q & WP). destruct (C128_bpmpd inf eps delta r ps s q WP Hr E) as (s' & st & Eo & _). rewrite Eo. eexists. reflexivity.
Qed.

Lemma at_ids_old k (x y : list R) i : (i < length x)%nat -> nth i (at_ids x k y) 0 = nth i x 0.
Proof. intros Hi. unfold at_ids. apply app_nth1. exact Hi. Qed.
Lemma at_ids_new k (x y : list R) j : (length x <= k)%nat -> nth (k + j) (at_ids x k y) 0 = nth j y 0.
Proof. intros Hi. unfold at_ids. rewrite app_nth2 by lia. rewrite app_nth2 by (rewrite repeat_length; lia). rewrite repeat_length. f_equal. lia. Qed.
(** from the problem of the calls to the QP of the pass *)
Section Read.
  Context (inf : R) (k : nat) (cnts : list (bool * aff R)) (r : round R) (lo hi : list R) (cs : list (call R)) (n : nat).
  Hypothesis Nk : (n <= k)%nat.
  Hypothesis Lv : live_v (vfacts inf cs) = seq 0 n ++ seq k (length (r_vars r)).
  Hypothesis F : forall eps X, fits_problem inf eps cs X <-> fits_pass inf eps k cnts r lo hi X.
  Lemma read_solves eps delta X : solves_problem inf eps delta cs (r_obj r) X <-> solves_pass inf eps delta k cnts r lo hi X.
  Proof using F.
    unfold solves_problem, solves_pass. rewrite F. split; intros [A B]; (split; [exact A|]); intros Y HY; apply B; apply F; exact HY.
  Qed.
  Lemma read_unsolvable : unsolvable inf cs (r_obj r) -> no_solution inf k cnts r lo hi.
  Proof using F. intros U X HX low. apply F in HX. destruct (U X HX low) as (Y & HY & L). exists Y. split; [apply F; exact HY|exact L]. Qed.
  Lemma read_values eps delta b sol : b_vars b = live_v (vfacts inf cs) -> good_values inf eps delta cs (r_obj r) b sol ->
    exists x y, length x = n /\ length y = length (r_vars r) /\ var_values b sol = map Some (x ++ y) /\ solves_pass inf eps delta k cnts r lo hi (at_ids x k y).
  Proof using F Lv Nk.
    intros Eb [(X & HX) K]. exists (map (fun i => nth i X 0) (seq 0 n)), (map (fun i => nth i X 0) (seq k (length (r_vars r)))).
    set (x := map _ (seq 0 n)). set (y := map _ (seq k _)). assert (Lx : length x = n) by (unfold x; rewrite map_length, seq_length; reflexivity).
    split; [exact Lx|]. split; [unfold y; rewrite map_length, seq_length; reflexivity|]. split.
    - unfold var_values, x, y. rewrite Eb, <- map_app, map_map, <- Lv. apply map_ext_in. exact HX.
    - apply read_solves, K. intros id Hid. rewrite HX by exact Hid. f_equal. rewrite Lv in Hid. apply in_app_or in Hid as [Hid|Hid]; apply in_seq in Hid.
      + rewrite at_ids_old by lia. unfold x. rewrite (nth_map_in _ _ _ _ 0%nat) by (rewrite seq_length; lia). rewrite seq_nth by lia. reflexivity.
      + replace id with (k + (id - k))%nat at 2 by lia. rewrite at_ids_new by lia. unfold y. rewrite (nth_map_in _ _ _ _ 0%nat) by (rewrite seq_length; lia).
        rewrite seq_nth by lia. f_equal. lia.
  Qed.
End Read.

Lemma updated_vars inf cs q b : well_posed inf cs q -> bcalls inf empty_backend cs = Some b -> b_vars (update b) = live_v (vfacts inf cs).
Proof. intros WP E. destruct (built inf cs q WP b E) as [H _]. apply (sim_update b _ _ H). Qed.

(** No call aborts; at every QP of every pass optimize() returns; CVX_SOLVED gives, in the order of getVars(), the values of the problem's variables followed by those
    of the variables of the pass, and they solve the QP of the pass; CVX_INFEASIBLE means that QP has no solution; and if it has one, a solver that finds it is used well. *)
Theorem C130_osqp :
  forall (inf eps delta : R) (sz : nat) (warm : bool) (run : list R -> osqp_run R) vars cnts done r l0 lo hi p l2,
    passes_ok inf vars cnts done r -> r_solves r = l0 ++ (lo, hi, p) :: l2 -> (forall x, osqp_honest inf eps delta (run x)) ->
    let n := length vars in let k := (n + made_v done)%nat in
    exists s s' st, osqp_steps inf sz false warm empty_omodel (translate run 0 (up_to vars cnts done r l0 lo hi)) = Ok s /\
      osqp_optimize inf sz false warm (run p) s = Ok (s', st) /\
      (st = CvxSolved -> exists x y, length x = n /\ length y = length (r_vars r) /\ var_values (om_b s') (om_sol s') = map Some (x ++ y) /\
         solves_pass inf eps delta k cnts r lo hi (at_ids x k y)) /\
      (st = CvxInfeasible -> no_solution inf k cnts r lo hi) /\
      (osqp_able inf (run p) -> (exists X, solves_pass inf 0 0 k cnts r lo hi X) -> st = CvxSolved).
Proof.
  intros inf eps delta sz warm run vars cnts done r l0 lo hi p l2 P Es HR. cbv zeta.
  destruct (C130_problem inf vars cnts done r l0 lo hi p l2 _ run P Es) as (WP & Lv & F). cbv zeta in WP, Lv, F.
  set (ps := translate run 0 (up_to vars cnts done r l0 lo hi)) in *.
  destruct (osqp_progress inf eps delta sz warm ps) as (s & E); [apply WP| |].
  { intros pre a post Ep. destruct (qps_before inf vars cnts done r l0 lo hi p l2 run pre a post P Es Ep) as ((x & ->) & K). split; [apply HR|exact K]. }
  destruct (C128_osqp inf eps delta sz warm (run p) ps s (r_obj r) WP (HR p) E) as (s' & st & Eo & K1 & K2 & K3).
  exists s, s', st. split; [exact E|]. split; [exact Eo|]. split; [|split].
  - intros Hs. apply (read_values inf _ cnts r lo hi (calls_of ps) (length vars)); [lia|exact Lv|exact F| |exact (K1 Hs)].
    rewrite (osqp_optimize_b _ _ _ _ _ _ _ _ Eo). apply osqp_steps_b in E. exact (updated_vars inf _ _ _ WP E).
  - intros Hs. exact (read_unsolvable inf _ cnts r lo hi _ F (K2 Hs)).
  - intros Ab (X & HX). apply (K3 Ab). exists X. apply (read_solves inf _ cnts r lo hi _ F). exact HX.
Qed.
Print Assumptions C130_osqp.

(** with qpOASES the last part holds when no hot start is tried (C129_again_refuted) *)
Theorem C130_qpoases :
  forall (Q : sqproblem R) (inf eps delta : R) vars cnts done r l0 lo hi p l2,
    passes_ok inf vars cnts done r -> r_solves r = l0 ++ (lo, hi, p) :: l2 -> qpoases_honest inf eps delta Q ->
    let n := length vars in let k := (n + made_v done)%nat in
    exists s s' st, qpoases_steps Q inf (empty_qmodel Q) (translate (fun _ => tt) 0 (up_to vars cnts done r l0 lo hi)) = Ok s /\
      qpoases_optimize Q inf s = Ok (Returns (s', st)) /\
      (st = CvxSolved -> exists x y, length x = n /\ length y = length (r_vars r) /\ var_values (qm_b Q s') (qm_sol Q s') = map Some (x ++ y) /\
         solves_pass inf eps delta k cnts r lo hi (at_ids x k y)) /\
      (st = CvxInfeasible -> forall X, ~ fits_pass inf 0 k cnts r lo hi X) /\
      (qpoases_able inf Q -> (forall sp, qm_p Q s = Some sp -> sq_ready Q sp = false \/ sq_nv Q sp <> (n + length (r_vars r))%nat) ->
       (exists X, solves_pass inf 0 0 k cnts r lo hi X) -> st = CvxSolved).
Proof.
  intros Q inf eps delta vars cnts done r l0 lo hi p l2 P Es HR. cbv zeta. set (run := fun _ : list R => tt).
  destruct (C130_problem inf vars cnts done r l0 lo hi p l2 _ run P Es) as (WP & Lv & F). cbv zeta in WP, Lv, F.
  set (ps := translate run 0 (up_to vars cnts done r l0 lo hi)) in *.
  destruct (qpoases_progress Q inf eps delta ps) as (s & E); [apply WP|exact HR| |].
  { intros pre a post Ep. destruct (qps_before inf vars cnts done r l0 lo hi p l2 run pre a post P Es Ep) as (_ & K). exact K. }
  destruct (C128_qpoases Q inf eps delta ps s (r_obj r) WP HR E) as (s' & st & Eo & K1 & K2 & K3).
  exists s, s', st. split; [exact E|]. split; [exact Eo|]. split; [|split].
  - intros Hs. apply (read_values inf _ cnts r lo hi (calls_of ps) (length vars)); [lia|exact Lv|exact F| |exact (K1 Hs)].
    rewrite (qpoases_optimize_b _ _ _ _ _ Eo). apply qpoases_steps_b in E. exact (updated_vars inf _ _ _ WP E).
  - intros Hs X HX. apply (K2 Hs X). apply F. exact HX.
  - intros Ab Np (X & HX). apply (K3 Ab).
    + intros sp Hp. rewrite Lv, app_length, !seq_length. destruct (Np sp Hp); [left|right; left]; assumption.
    + exists X. apply (read_solves inf _ cnts r lo hi _ F). exact HX.
Qed.
Print Assumptions C130_qpoases.

Theorem C130_bpmpd :
  forall (inf eps delta : R) (run : list R -> bpm R -> list R * Z) vars cnts done r l0 lo hi p l2,
    passes_ok inf vars cnts done r -> r_solves r = l0 ++ (lo, hi, p) :: l2 -> (forall x, bpmpd_honest inf eps delta (run x)) ->
    let n := length vars in let k := (n + made_v done)%nat in
    exists s s' st, bpmpd_steps inf empty_bmodel (translate run 0 (up_to vars cnts done r l0 lo hi)) = Ok s /\
      bpmpd_optimize inf (run p) s = Ok (s', st) /\
      (st = CvxSolved -> exists x y, length x = n /\ length y = length (r_vars r) /\ var_values (bm_b s') (bm_sol s') = map Some (x ++ y) /\
         solves_pass inf eps delta k cnts r lo hi (at_ids x k y)) /\
      (st = CvxInfeasible -> no_solution inf k cnts r lo hi) /\
      (bpmpd_able inf (run p) -> (exists X, solves_pass inf 0 0 k cnts r lo hi X) -> st = CvxSolved).
Proof.
  intros inf eps delta run vars cnts done r l0 lo hi p l2 P Es HR. cbv zeta.
  destruct (C130_problem inf vars cnts done r l0 lo hi p l2 _ run P Es) as (WP & Lv & F). cbv zeta in WP, Lv, F.
  set (ps := translate run 0 (up_to vars cnts done r l0 lo hi)) in *.
  destruct (bpmpd_progress inf eps delta ps) as (s & E); [apply WP| |].
  { intros pre a post Ep. destruct (qps_before inf vars cnts done r l0 lo hi p l2 run pre a post P Es Ep) as ((x & ->) & K). split; [apply HR|exact K]. }
  destruct (C128_bpmpd inf eps delta (run p) ps s (r_obj r) WP (HR p) E) as (s' & st & Eo & K1 & K2 & K3).
  exists s, s', st. split; [exact E|]. split; [exact Eo|]. split; [|split].
  - intros Hs. apply (read_values inf _ cnts r lo hi (calls_of ps) (length vars)); [lia|exact Lv|exact F| |exact (K1 Hs)].
    rewrite (bpmpd_optimize_b _ _ _ _ _ Eo). apply bpmpd_steps_b in E. exact (updated_vars inf _ _ _ WP E).
  - intros Hs. exact (read_unsolvable inf _ cnts r lo hi _ F (K2 Hs)).
  - intros Ab (X & HX). apply (K3 Ab). exists X. apply (read_solves inf _ cnts r lo hi _ F). exact HX.
Qed.
Print Assumptions C130_bpmpd.

(** three passes over a problem with one variable, each with the hinge max(x + w, 0); in the third, at its second QP, x is within 1/2 of 0 and w = 2 *)
Definition hinge_round (k kc : nat) (w : R) : round R :=
  {| r_vars := [(0, 100)]; r_cnts := [(true, {| a_const := w; a_coeffs := [1; -1]; a_vars := [0%nat; k] |})];
     r_obj := {| q_aff := {| a_const := 0; a_coeffs := [1]; a_vars := [k] |}; q_coeffs := []; q_vars1 := []; q_vars2 := [] |};
     r_solves := [([-1], [1], [0]); ([-(1/2)], [1/2], [1])]; r_gone := [([kc], [k])] |}.
Definition hinge_cnts : list (bool * aff R) := [(true, {| a_const := -4; a_coeffs := [1]; a_vars := [0%nat] |})].
Example C130_hypotheses : passes_ok 1000 [(-5, 5)] hinge_cnts [hinge_round 1 1 7; hinge_round 2 2 3] (hinge_round 3 3 2).
Proof.
  assert (Ok : forall k kc w, (1 <= k)%nat -> round_ok 1 k kc (hinge_round k kc w)).
  { intros k kc w L. unfold round_ok, hinge_round, wf_quad, wf_aff, speaks. cbn [r_vars r_cnts r_obj r_solves length q_aff q_coeffs q_vars1 q_vars2 a_vars a_coeffs app].
    split; [constructor; [|constructor]; cbn [snd a_coeffs a_vars]; split; [reflexivity|]; constructor; [lia|constructor; [lia|constructor]]|].
    split; [repeat split|]. split; [constructor; [lia|constructor]|]. constructor; [split; reflexivity|constructor; [split; reflexivity|constructor]]. }
  assert (Cl : forall k kc w, round_clean k kc (hinge_round k kc w)) by (intros k kc w; split; intros i; cbn; lia).
  unfold passes_ok. cbv zeta. split; [lra|]. split; [|split; [|split; [|split]]].
  - constructor; [|constructor]. split; [reflexivity|]. constructor; [cbn; lia|constructor].
  - cbn [rounds_ok length hinge_cnts]. split; [apply Ok; lia|]. split; [apply Cl|]. cbn [hinge_round r_vars r_cnts length Nat.add]. split; [apply Ok; lia|]. split; [apply Cl|exact I].
  - apply Ok. lia.
  - constructor; [cbn; lra|constructor].
  - intros r' [<-|[<-|[<-|[]]]]; (constructor; [cbn; lra|constructor]).
Qed.
Definition hinge_lo : list R := [-(1/2)].
Definition hinge_hi : list R := [1/2].
Lemma hinge_fits X : fits_pass 1000 0 3 hinge_cnts (hinge_round 3 3 2) hinge_lo hinge_hi X <->
  nth 0 X 0 <= 4 /\ nth 0 X 0 + 2 <= nth 3 X 0 /\ -(1/2) <= nth 0 X 0 <= 1/2 /\ 0 <= nth 3 X 0 <= 100.
Proof.
  unfold fits_pass, cnt_near, near. cbn [hinge_round r_cnts r_vars length hinge_cnts hinge_lo hinge_hi app].
  split.
  - intros (A & B & C). pose proof (A _ (or_introl eq_refl)) as A1. pose proof (A _ (or_intror (or_introl eq_refl))) as A2. specialize (B 0%nat ltac:(lia)). specialize (C 0%nat ltac:(lia)).
    cbn [fst snd nth Nat.add hinge_lo hinge_hi] in A1, A2, B, C. rewrite aff_value_sum in A1, A2. cbn [a_const a_coeffs a_vars combine] in A1, A2. rewrite !rsum_cons, !rsum_nil in A1. rewrite !rsum_cons, !rsum_nil in A2. cbn [fst snd] in A1, A2.
    destruct B as [B1 B2], C as [C1 C2]. destruct B1, B2, C1, C2; lra.
  - intros (A1 & A2 & B & C). split; [|split].
    + intros c [<-|[<-|[]]]; cbn [fst snd]; rewrite aff_value_sum; cbn [a_const a_coeffs a_vars combine]; rewrite !rsum_cons, !rsum_nil; cbn [fst snd]; lra.
    + intros i Hi. destruct i; [|cbn in Hi; lia]. cbn [nth hinge_lo hinge_hi]. split; right; lra.
    + intros j Hj. destruct j; [|lia]. cbn [nth fst snd Nat.add]. split; right; lra.
Qed.
Lemma hinge_value X : quad_value (r_obj (hinge_round 3 3 2)) X = nth 3 X 0.
Proof. rewrite quad_value_sum, aff_value_sum. cbn [hinge_round r_obj q_aff q_coeffs q_vars1 q_vars2 a_const a_coeffs a_vars combine]. rewrite !rsum_cons, !rsum_nil. cbn [fst snd]. ring. Qed.
Lemma hinge_solution X : solves_pass 1000 0 0 3 hinge_cnts (hinge_round 3 3 2) hinge_lo hinge_hi X <-> nth 0 X 0 = -(1/2) /\ nth 3 X 0 = 3/2.
Proof.
  unfold solves_pass. rewrite hinge_fits, hinge_value. split.
  - intros (A & B). specialize (B [-(1/2); 0; 0; 3/2]). rewrite hinge_fits, hinge_value in B. cbn [nth] in B. split; lra.
  - intros (A & B). rewrite A, B. split; [lra|]. intros Y HY. rewrite hinge_fits in HY. rewrite hinge_value. lra.
Qed.
(** with solvers that find what there is, the third pass reads off the solution of its second QP *)
Example C130_example :
  forall (run : osqp_run R) (f : bpm R -> list R * Z), osqp_honest 1000 0 0 run -> osqp_able 1000 run -> bpmpd_honest 1000 0 0 f -> bpmpd_able 1000 f ->
  let calls := up_to [(-5, 5)] hinge_cnts [hinge_round 1 1 7; hinge_round 2 2 3] (hinge_round 3 3 2) [([-1], [1], [0])] hinge_lo hinge_hi in
  (exists s s', osqp_steps 1000 64 false true empty_omodel (translate (fun _ => run) 0 calls) = Ok s /\ osqp_optimize 1000 64 false true run s = Ok (s', CvxSolved) /\
     var_values (om_b s') (om_sol s') = [Some (-(1/2)); Some (3/2)]) /\
  (exists s s', bpmpd_steps 1000 empty_bmodel (translate (fun _ => f) 0 calls) = Ok s /\ bpmpd_optimize 1000 f s = Ok (s', CvxSolved) /\
     var_values (bm_b s') (bm_sol s') = [Some (-(1/2)); Some (3/2)]).
Proof.
  intros run f H1 A1 H2 A2. cbv zeta.
  assert (Sol : exists X, solves_pass 1000 0 0 3 hinge_cnts (hinge_round 3 3 2) hinge_lo hinge_hi X) by (exists [-(1/2); 0; 0; 3/2]; apply hinge_solution; split; reflexivity).
  assert (Rd : forall x y, length x = 1%nat -> length y = 1%nat -> solves_pass 1000 0 0 3 hinge_cnts (hinge_round 3 3 2) hinge_lo hinge_hi (at_ids x 3 y) -> map Some (x ++ y) = [Some (-(1/2)); Some (3/2)]).
  { intros [|a [|]] [|b [|]] L1 L2 K; try discriminate. apply hinge_solution in K. cbn in K. destruct K as [-> ->]. reflexivity. }
  split.
  - destruct (C130_osqp 1000 0 0 64 true (fun _ => run) _ _ _ _ [([-1], [1], [0])] hinge_lo hinge_hi [1] [] C130_hypotheses eq_refl (fun _ => H1)) as (s & s' & st & E1 & E2 & K1 & K2 & K3).
    specialize (K3 A1 Sol). subst st. exists s, s'. split; [exact E1|]. split; [exact E2|]. destruct (K1 eq_refl) as (x & y & L1 & L2 & V & K). rewrite V. exact (Rd x y L1 L2 K).
  - destruct (C130_bpmpd 1000 0 0 (fun _ => f) _ _ _ _ [([-1], [1], [0])] hinge_lo hinge_hi [1] [] C130_hypotheses eq_refl (fun _ => H2)) as (s & s' & st & E1 & E2 & K1 & K2 & K3).
    specialize (K3 A2 Sol). subst st. exists s, s'. split; [exact E1|]. split; [exact E2|]. destruct (K1 eq_refl) as (x & y & L1 & L2 & V & K). rewrite V. exact (Rd x y L1 L2 K).
Qed.
