(** * C131 and C132: the step of every QP of every pass of the SQP, and what the optimizer computes from it *)
From Coq Require Import List ZArith Bool Arith Lia Reals Lra.
From Verif Require Import Num NumFacts RSums Common ScoExprModel ScoExprProofs ModelingModel ModelingSpec ModelingProofs BackendModel BackendSpec BackendProofs BackendProps GurobiSpec
  SolveModel SolveSpec SolveProofs SolveProps RoundSolveSpec RoundSolveProofs RoundSolveProps ScoOptModel MeritModel MeritSpec MeritProofs.
Import ListNotations.
Local Open Scope R_scope.

(** ** C131 *)
Lemma sqp_passes inf vars cnts ps p : sqp_ok inf vars cnts ps p -> passes_ok inf vars cnts (before inf vars cnts ps) (present inf vars cnts ps p).
Proof.
  intros (Hi & Hc & Hp). inversion_clear Hp. unfold passes_ok. cbv zeta.
  destruct (pass_rounds_ok inf (length vars) ps (length vars) (length cnts) Hi (Nat.le_refl _) H0) as [R1 R2].
  destruct (pass_facts inf (length vars) (created inf vars cnts ps) (length cnts + made_c (before inf vars cnts ps)) p Hi ltac:(unfold created; lia) H)
    as (m & os1 & os2 & j & _ & _ & _ & _ & _ & _ & _ & A & _ & C).
  split; [exact Hi|]. split; [eapply Forall_impl; [|exact Hc]; intros c [[W V] _]; split; assumption|]. split; [exact R1|]. split; [exact A|].
  split; [eapply Forall_impl; [|exact Hc]; intros c [_ W]; exact W|]. intros r [<-|Hr]; [exact C|exact (R2 r Hr)].
Qed.
Lemma sqp_parts inf vars cnts ps p l0 lo hi name l2 : sqp_ok inf vars cnts ps p -> p_solves p = l0 ++ (lo, hi, name) :: l2 ->
  0 < inf /\ (length vars <= created inf vars cnts ps)%nat /\ pass_ok inf (length vars) p /\ length lo = length vars /\
  Forall (fun c => Forall (fun v => (v < length vars)%nat) (a_vars (snd c))) cnts /\ r_solves (present inf vars cnts ps p) = l0 ++ (lo, hi, name) :: l2.
Proof.
  intros (Hi & Hc & Hp) Es. inversion_clear Hp. split; [exact Hi|]. split; [unfold created; lia|]. split; [exact H|]. split; [|split].
  - destruct H as (_ & _ & _ & _ & L). rewrite Es in L. apply Forall_app in L as [_ L]. inversion_clear L. apply H.
  - eapply Forall_impl; [|exact Hc]. intros c [[_ V] _]. exact V.
  - unfold present, pass_round. destruct (pass_objs _ p) as [[m os1] os2]. exact Es.
Qed.
Lemma first_values n (x y vals : list R) (f : list (option R)) : f = map Some (x ++ y) -> f = map Some vals -> length x = n -> vals = x ++ y /\ firstn n vals = x.
Proof.
  intros E1 E2 L. assert (E : vals = x ++ y).
  { rewrite E1 in E2. clear - E2. revert vals E2. induction (x ++ y) as [|a l IH]; intros [|b vals] E; cbn in E; try discriminate; [reflexivity|]. injection E as <- E. f_equal. auto. }
  split; [exact E|]. rewrite E, <- L, firstn_app, Nat.sub_diag, firstn_all. cbn. apply app_nil_r.
Qed.

(** At every QP of every pass, if the solver's answer is accepted, the values of the problem's variables are a best step: within the bounds and linear constraints of
    the problem, and the convex merit function (hinges and absolute values taken exactly) is there not above its value at any other such point, all up to the
    solver's tolerances.  If the QP is reported infeasible there is no best step; and if there is one, a solver that finds optima is used well. *)
Theorem C131_osqp :
  forall (inf eps delta : R) (sz : nat) (warm : bool) (run : list R -> osqp_run R) vars cnts ps p l0 lo hi name l2,
    sqp_ok inf vars cnts ps p -> p_solves p = l0 ++ (lo, hi, name) :: l2 -> (forall x, osqp_honest inf eps delta (run x)) ->
    exists s s' st, osqp_steps inf sz false warm empty_omodel (translate run 0 (sqp_calls inf vars cnts ps p l0 lo hi)) = Ok s /\
      osqp_optimize inf sz false warm (run name) s = Ok (s', st) /\
      (st = CvxSolved -> exists vals, var_values (om_b s') (om_sol s') = map Some vals /\ length (firstn (length vars) vals) = length vars /\
         best_step inf eps delta cnts lo hi p (firstn (length vars) vals)) /\
      (st = CvxInfeasible -> no_best inf (length vars) cnts lo hi p) /\
      (osqp_able inf (run name) -> (exists z, length z = length vars /\ best_step inf 0 0 cnts lo hi p z) -> st = CvxSolved).
Proof.
  intros inf eps delta sz warm run vars cnts ps p l0 lo hi name l2 P Es HR.
  destruct (sqp_parts inf vars cnts ps p l0 lo hi name l2 P Es) as (Hi & Hn & Hp & Hl & Hc & Er).
  destruct (C130_osqp inf eps delta sz warm run vars cnts _ _ l0 lo hi name l2 (sqp_passes inf vars cnts ps p P) Er HR) as (s & s' & st & E1 & E2 & K1 & K2 & K3).
  exists s, s', st. split; [exact E1|]. split; [exact E2|]. split; [|split].
  - intros Hs. destruct (K1 Hs) as (x & y & Lx & Ly & V & Sv). exists (x ++ y). destruct (first_values (length vars) x y (x ++ y) _ eq_refl eq_refl Lx) as [_ ->].
    split; [exact V|]. split; [exact Lx|]. eapply pass_best; eassumption.
  - intros Hs. eapply pass_no_best; try eassumption. exact (K2 Hs).
  - intros Ab (z & Lz & Bz). apply (K3 Ab). eapply best_solves; eassumption.
Qed.
Print Assumptions C131_osqp.
(** with qpOASES infeasible means that no step is allowed, and the last part holds when no hot start is tried (C129_again_refuted) *)
Theorem C131_qpoases :
  forall (Q : sqproblem R) (inf eps delta : R) vars cnts ps p l0 lo hi name l2,
    sqp_ok inf vars cnts ps p -> p_solves p = l0 ++ (lo, hi, name) :: l2 -> qpoases_honest inf eps delta Q ->
    exists s s' st, qpoases_steps Q inf (empty_qmodel Q) (translate (fun _ => tt) 0 (sqp_calls inf vars cnts ps p l0 lo hi)) = Ok s /\
      qpoases_optimize Q inf s = Ok (Returns (s', st)) /\
      (st = CvxSolved -> exists vals, var_values (qm_b Q s') (qm_sol Q s') = map Some vals /\ length (firstn (length vars) vals) = length vars /\
         best_step inf eps delta cnts lo hi p (firstn (length vars) vals)) /\
      (st = CvxInfeasible -> forall z, length z = length vars -> ~ allowed inf 0 cnts lo hi z) /\
      (qpoases_able inf Q -> (forall sp, qm_p Q s = Some sp -> sq_ready Q sp = false \/ sq_nv Q sp <> (length vars + length (r_vars (present inf vars cnts ps p)))%nat) ->
       (exists z, length z = length vars /\ best_step inf 0 0 cnts lo hi p z) -> st = CvxSolved).
Proof.
  intros Q inf eps delta vars cnts ps p l0 lo hi name l2 P Es HR.
  destruct (sqp_parts inf vars cnts ps p l0 lo hi name l2 P Es) as (Hi & Hn & Hp & Hl & Hc & Er).
  destruct (C130_qpoases Q inf eps delta vars cnts _ _ l0 lo hi name l2 (sqp_passes inf vars cnts ps p P) Er HR) as (s & s' & st & E1 & E2 & K1 & K2 & K3).
  exists s, s', st. split; [exact E1|]. split; [exact E2|]. split; [|split].
  - intros Hs. destruct (K1 Hs) as (x & y & Lx & Ly & V & Sv). exists (x ++ y). destruct (first_values (length vars) x y (x ++ y) _ eq_refl eq_refl Lx) as [_ ->].
    split; [exact V|]. split; [exact Lx|]. eapply pass_best; eassumption.
  - intros Hs. eapply pass_empty; try eassumption. exact (K2 Hs).
  - intros Ab Np (z & Lz & Bz). apply (K3 Ab Np). eapply best_solves; eassumption.
Qed.
Print Assumptions C131_qpoases.
Theorem C131_bpmpd :
  forall (inf eps delta : R) (run : list R -> bpm R -> list R * Z) vars cnts ps p l0 lo hi name l2,
    sqp_ok inf vars cnts ps p -> p_solves p = l0 ++ (lo, hi, name) :: l2 -> (forall x, bpmpd_honest inf eps delta (run x)) ->
    exists s s' st, bpmpd_steps inf empty_bmodel (translate run 0 (sqp_calls inf vars cnts ps p l0 lo hi)) = Ok s /\
      bpmpd_optimize inf (run name) s = Ok (s', st) /\
      (st = CvxSolved -> exists vals, var_values (bm_b s') (bm_sol s') = map Some vals /\ length (firstn (length vars) vals) = length vars /\
         best_step inf eps delta cnts lo hi p (firstn (length vars) vals)) /\
      (st = CvxInfeasible -> no_best inf (length vars) cnts lo hi p) /\
      (bpmpd_able inf (run name) -> (exists z, length z = length vars /\ best_step inf 0 0 cnts lo hi p z) -> st = CvxSolved).
Proof.
  intros inf eps delta run vars cnts ps p l0 lo hi name l2 P Es HR.
  destruct (sqp_parts inf vars cnts ps p l0 lo hi name l2 P Es) as (Hi & Hn & Hp & Hl & Hc & Er).
  destruct (C130_bpmpd inf eps delta run vars cnts _ _ l0 lo hi name l2 (sqp_passes inf vars cnts ps p P) Er HR) as (s & s' & st & E1 & E2 & K1 & K2 & K3).
  exists s, s', st. split; [exact E1|]. split; [exact E2|]. split; [|split].
  - intros Hs. destruct (K1 Hs) as (x & y & Lx & Ly & V & Sv). exists (x ++ y). destruct (first_values (length vars) x y (x ++ y) _ eq_refl eq_refl Lx) as [_ ->].
    split; [exact V|]. split; [exact Lx|]. eapply pass_best; eassumption.
  - intros Hs. eapply pass_no_best; try eassumption. exact (K2 Hs).
  - intros Ab (z & Lz & Bz). apply (K3 Ab). eapply best_solves; eassumption.
Qed.
Print Assumptions C131_bpmpd.

(** ** C132 *)
(** the objects of the costs *)
Definition cost_objs (k : nat) (p : cpass R) : list (cobj R) := snd (fst (pass_objs k p)).
(** model_merit of BasicTrustRegionSQPResults::update *)
Definition model_merit (b : backend R) (k : nat) (p : cpass R) (vals : list R) : R :=
  omerit_of (model_costs b (cost_objs k p) vals) (model_viols b (p_cnts p) vals) (p_mu p).

Lemma weighted (f : ccnts R -> R) (cs : list (ccnts R)) : forall ks, vdot (map f cs) ks = rsum (fun ck => snd ck * f (fst ck)) (combine cs ks).
Proof.
  intros ks. rewrite vdot_rsum. revert ks. induction cs as [|c cs IH]; intros [|a ks]; try reflexivity.
  cbn [map combine]. rewrite !rsum_cons, IH. cbn [fst snd]. ring.
Qed.
Lemma pick_ids (vf : list (vfact R)) n k (x y : list R) : live_v vf = seq 0 n ++ seq k (length y) -> length x = n -> (n <= k)%nat -> pick vf (at_ids x k y) = x ++ y.
Proof.
  intros Lv Lx Hn. unfold pick. rewrite Lv, map_app. f_equal.
  - apply (nth_ext _ _ 0 0); [rewrite map_length, seq_length; lia|]. intros i Hi. rewrite map_length, seq_length in Hi.
    rewrite (nth_map_in _ _ _ _ 0%nat) by (rewrite seq_length; lia). rewrite seq_nth by lia. apply at_ids_old. lia.
  - apply (nth_ext _ _ 0 0); [rewrite map_length, seq_length; lia|]. intros i Hi. rewrite map_length, seq_length in Hi.
    rewrite (nth_map_in _ _ _ _ 0%nat) by (rewrite seq_length; lia). rewrite seq_nth by lia. apply at_ids_new. lia.
Qed.
Lemma merit_read inf n k p m os1 os2 j b vf cf (x y : list R) : pass_ok inf n p -> (n <= k)%nat -> pass_objs k p = (m, os1, os2) -> Forall (obj_good inf n k (k + j)) os1 ->
  sim b vf cf -> live_v vf = seq 0 n ++ seq k j -> length x = n -> length y = j ->
  model_merit (update b) k p (x ++ y) =
    rsum (fun o => quad_value (co_quad o) (at_ids x k y)) os1 +
    rsum (fun ck => snd ck * (rsum (fun a => Rabs (aff_value a x)) (cc_eqs (fst ck)) + rsum (fun a => Rmax (aff_value a x) 0) (cc_ineqs (fst ck)))) (combine (p_cnts p) (p_mu p)).
Proof.
  intros Hp Hn Eo G Hs Lv Lx Ly. subst j. rewrite <- (pick_ids vf n k x y Lv Lx Hn).
  assert (Ov : forall l, Forall (spk n k (k + length y)) l -> over vf l).
  { intros l. apply Forall_impl. intros v Hv. rewrite Lv. apply in_or_app. unfold spk in Hv. rewrite !in_seq. lia. }
  assert (Va : forall a, aff_in n a -> aff_value (resolve (update b) a) (pick vf (at_ids x k y)) = aff_value a x).
  { intros a [_ V]. rewrite (resolve_value b vf cf); [|exact Hs|apply Ov; eapply Forall_impl; [|exact V]; unfold spk; intros; lia]. apply aff_value_app. rewrite Lx. exact V. }
  unfold model_merit, omerit_of. apply (f_equal2 Rplus).
  - unfold model_costs. rewrite vsum_R. unfold cost_objs. rewrite Eo. cbn [fst snd]. apply rsum_ext. intros o Ho. rewrite Forall_forall in G. destruct (G o Ho) as (_ & Q & _).
    unfold quad_vars in Q. apply Forall_app in Q as [Q1 Q]. apply Forall_app in Q as [Q2 Q3].
    apply (resolve_quad_value b vf cf); [exact Hs|]. split; [apply Ov; exact Q1|]. split; apply Ov; assumption.
  - unfold model_viols. rewrite weighted. apply rsum_ext. intros [c mu] Hin. cbn [fst snd]. f_equal. apply in_combine_l in Hin.
    destruct Hp as (_ & Hc & _). rewrite Forall_forall in Hc. specialize (Hc c Hin). apply Forall_app in Hc as [C1 C2]. rewrite Forall_forall in C1, C2.
    unfold ccnts_violation, ccnts_violations. cbn [cc_eqs cc_ineqs]. rewrite vsum_R, Rsum_app, !map_map. f_equal.
    + apply rsum_ext. intros a Ha. rewrite Va by (apply C1; exact Ha). reflexivity.
    + apply rsum_ext. intros a Ha. rewrite Va by (apply C2; exact Ha). apply pospart_Rmax.
Qed.

(** from the calls to the report *)
Lemma merit_of_values inf eps delta vars cnts ps p l0 lo hi name l2 {A} (run : list R -> A) b b' sol vals :
  sqp_ok inf vars cnts ps p -> p_solves p = l0 ++ (lo, hi, name) :: l2 ->
  bcalls inf empty_backend (calls_of (translate run 0 (sqp_calls inf vars cnts ps p l0 lo hi))) = Some b -> b' = update b -> var_values b' sol = map Some vals ->
  (exists x y, length x = length vars /\ length y = length (r_vars (present inf vars cnts ps p)) /\ var_values b' sol = map Some (x ++ y) /\
    solves_pass inf eps delta (created inf vars cnts ps) cnts (present inf vars cnts ps p) lo hi (at_ids x (created inf vars cnts ps) y)) ->
  fair_merit inf eps delta cnts lo hi p (firstn (length vars) vals) (model_merit b' (created inf vars cnts ps) p vals).
Proof.
  intros P Es E -> V (x & y & Lx & Ly & V' & Sv).
  destruct (sqp_parts inf vars cnts ps p l0 lo hi name l2 P Es) as (Hi & Hn & Hp & Hl & Hc & Er).
  destruct (first_values (length vars) x y vals _ V' V Lx) as [-> ->].
  destruct (C130_problem inf vars cnts _ _ l0 lo hi name l2 _ run (sqp_passes inf vars cnts ps p P) Er) as (WP & Lv & _). cbv zeta in WP, Lv.
  destruct (built inf _ _ WP b E) as [Hs _].
  destruct (pass_facts inf (length vars) (created inf vars cnts ps) (length cnts + made_c (before inf vars cnts ps)) p Hi Hn Hp)
    as (m & os1 & os2 & j & _ & Eo & _ & Rv & _ & G & _). apply Forall_app in G as [G _].
  fold (present inf vars cnts ps p) in Rv. rewrite Rv, repeat_length in Ly. fold (created inf vars cnts ps) in Lv. rewrite Rv, repeat_length in Lv.
  rewrite (merit_read inf (length vars) _ p _ os1 os2 j b _ _ x y Hp Hn Eo G Hs Lv Lx Ly).
  eapply pass_fair; eassumption.
Qed.

(** The model's merit that update() computes from an accepted answer - costs read off the auxiliary variables, constraints evaluated at the values of the problem's
    variables, with the indices the variables have then - is not below the convex merit function at the new point, and not above it at any allowed point, up to the
    solver's tolerances. *)
Theorem C132_osqp :
  forall (inf eps delta : R) (sz : nat) (warm : bool) (run : list R -> osqp_run R) vars cnts ps p l0 lo hi name l2 s s' vals,
    sqp_ok inf vars cnts ps p -> p_solves p = l0 ++ (lo, hi, name) :: l2 -> (forall x, osqp_honest inf eps delta (run x)) ->
    osqp_steps inf sz false warm empty_omodel (translate run 0 (sqp_calls inf vars cnts ps p l0 lo hi)) = Ok s ->
    osqp_optimize inf sz false warm (run name) s = Ok (s', CvxSolved) -> var_values (om_b s') (om_sol s') = map Some vals ->
    fair_merit inf eps delta cnts lo hi p (firstn (length vars) vals) (model_merit (om_b s') (created inf vars cnts ps) p vals).
Proof.
  intros inf eps delta sz warm run vars cnts ps p l0 lo hi name l2 s s' vals P Es HR E1 E2 V.
  destruct (sqp_parts inf vars cnts ps p l0 lo hi name l2 P Es) as (_ & _ & _ & _ & _ & Er).
  destruct (C130_osqp inf eps delta sz warm run vars cnts _ _ l0 lo hi name l2 (sqp_passes inf vars cnts ps p P) Er HR) as (t & t' & st & F1 & F2 & K1 & _).
  unfold sqp_calls in E1. rewrite F1 in E1. injection E1 as ->. rewrite F2 in E2. injection E2 as -> ->. specialize (K1 eq_refl).
  apply osqp_steps_b in F1. apply (merit_of_values inf eps delta vars cnts ps p l0 lo hi name l2 run (om_b s) _ (om_sol s')); try assumption.
  exact (osqp_optimize_b _ _ _ _ _ _ _ _ F2).
Qed.
Print Assumptions C132_osqp.
Theorem C132_qpoases :
  forall (Q : sqproblem R) (inf eps delta : R) vars cnts ps p l0 lo hi name l2 s s' vals,
    sqp_ok inf vars cnts ps p -> p_solves p = l0 ++ (lo, hi, name) :: l2 -> qpoases_honest inf eps delta Q ->
    qpoases_steps Q inf (empty_qmodel Q) (translate (fun _ => tt) 0 (sqp_calls inf vars cnts ps p l0 lo hi)) = Ok s ->
    qpoases_optimize Q inf s = Ok (Returns (s', CvxSolved)) -> var_values (qm_b Q s') (qm_sol Q s') = map Some vals ->
    fair_merit inf eps delta cnts lo hi p (firstn (length vars) vals) (model_merit (qm_b Q s') (created inf vars cnts ps) p vals).
Proof.
  intros Q inf eps delta vars cnts ps p l0 lo hi name l2 s s' vals P Es HR E1 E2 V.
  destruct (sqp_parts inf vars cnts ps p l0 lo hi name l2 P Es) as (_ & _ & _ & _ & _ & Er).
  destruct (C130_qpoases Q inf eps delta vars cnts _ _ l0 lo hi name l2 (sqp_passes inf vars cnts ps p P) Er HR) as (t & t' & st & F1 & F2 & K1 & _).
  unfold sqp_calls in E1. rewrite F1 in E1. injection E1 as ->. rewrite F2 in E2. injection E2 as -> ->. specialize (K1 eq_refl).
  apply qpoases_steps_b in F1. apply (merit_of_values inf eps delta vars cnts ps p l0 lo hi name l2 (fun _ => tt) (qm_b Q s) _ (qm_sol Q s')); try assumption.
  exact (qpoases_optimize_b _ _ _ _ _ F2).
Qed.
Print Assumptions C132_qpoases.
Theorem C132_bpmpd :
  forall (inf eps delta : R) (run : list R -> bpm R -> list R * Z) vars cnts ps p l0 lo hi name l2 s s' vals,
    sqp_ok inf vars cnts ps p -> p_solves p = l0 ++ (lo, hi, name) :: l2 -> (forall x, bpmpd_honest inf eps delta (run x)) ->
    bpmpd_steps inf empty_bmodel (translate run 0 (sqp_calls inf vars cnts ps p l0 lo hi)) = Ok s ->
    bpmpd_optimize inf (run name) s = Ok (s', CvxSolved) -> var_values (bm_b s') (bm_sol s') = map Some vals ->
    fair_merit inf eps delta cnts lo hi p (firstn (length vars) vals) (model_merit (bm_b s') (created inf vars cnts ps) p vals).
Proof.
  intros inf eps delta run vars cnts ps p l0 lo hi name l2 s s' vals P Es HR E1 E2 V.
  destruct (sqp_parts inf vars cnts ps p l0 lo hi name l2 P Es) as (_ & _ & _ & _ & _ & Er).
  destruct (C130_bpmpd inf eps delta run vars cnts _ _ l0 lo hi name l2 (sqp_passes inf vars cnts ps p P) Er HR) as (t & t' & st & F1 & F2 & K1 & _).
  unfold sqp_calls in E1. rewrite F1 in E1. injection E1 as ->. rewrite F2 in E2. injection E2 as -> ->. specialize (K1 eq_refl).
  apply bpmpd_steps_b in F1. apply (merit_of_values inf eps delta vars cnts ps p l0 lo hi name l2 run (bm_b s) _ (bm_sol s')); try assumption.
  exact (bpmpd_optimize_b _ _ _ _ _ F2).
Qed.
Print Assumptions C132_bpmpd.

(** the bounds setTrustBoxConstraints sets around [x] *)
Definition box_lo (lb ub x : list R) (box : R) : list R := map fst (trust_boxes lb ub x box).
Definition box_hi (lb ub x : list R) (box : R) : list R := map snd (trust_boxes lb ub x box).
Lemma box_holds inf lb ub x box : length lb = length x -> length ub = length x -> 0 <= box ->
  (forall i, (i < length x)%nat -> nth i lb 0 <= nth i x 0 <= nth i ub 0) ->
  forall i, (i < length (box_lo lb ub x box))%nat -> near inf 0 (nth i (box_lo lb ub x box) 0) (nth i (box_hi lb ub x box) 0) (nth i x 0).
Proof.
  intros L1 L2 Hb Hx i Hi. unfold box_lo, box_hi, trust_boxes in *. rewrite !map_length, !combine_length, L1, L2, !Nat.min_id in Hi. rewrite !map_map.
  specialize (Hx i Hi). assert (Hl : (i < length (combine (combine lb ub) x))%nat) by (rewrite !combine_length; lia).
  rewrite !(nth_map_in _ _ _ _ ((0, 0), 0)) by exact Hl. rewrite combine_nth by (rewrite combine_length; lia). rewrite combine_nth by lia. cbn [fst snd].
  unfold trust_box1. cbn [fst snd]. rewrite nmax_R, nmin_R. set (xi := nclamp _ _ _).
  assert (Ex : xi = nth i x 0). { unfold xi, nclamp. rnum. repeat rcase; lra. }
  rewrite Ex. rnum. unfold near.
  split; right; [unfold Rmax; destruct (Rle_dec _ _); lra|unfold Rmin; destruct (Rle_dec _ _); lra].
Qed.
(** The improvement the model promises, approx_merit_improve: if the current point is within its limits and satisfies the linear constraints of the problem, and the
    convexification is exact there, it is not negative, up to the solver's tolerances.  ("approximate merit function got worse" needs one of these to fail.) *)
Theorem C132_improvement :
  forall (inf eps delta : R) cnts p lb ub x0 box x m, fair_merit inf eps delta cnts (box_lo lb ub x0 box) (box_hi lb ub x0 box) p x m -> length x0 = length x ->
    length lb = length x0 -> length ub = length x0 -> 0 <= box -> (forall i, (i < length x0)%nat -> nth i lb 0 <= nth i x0 0 <= nth i ub 0) ->
    (forall c, In c cnts -> if fst c then aff_value (snd c) x0 <= 0 else aff_value (snd c) x0 = 0) ->
    forall old, old = convex_merit p x0 -> - (delta + cnt_weight p * eps) <= old - m.
Proof.
  intros inf eps delta cnts p lb ub x0 box x m [_ F] L0 L1 L2 Hb Hx Hc old ->.
  assert (A : allowed inf 0 cnts (box_lo lb ub x0 box) (box_hi lb ub x0 box) x0).
  { split; [|apply box_holds; assumption]. intros c Hin. specialize (Hc c Hin). unfold cnt_near. destruct (fst c); lra. }
  specialize (F x0 L0 A). lra.
Qed.
Print Assumptions C132_improvement.

(** One variable with -5 <= x <= 5, x <= 4; cost 2 max(1 - x, 0), constraint x = 0 with coefficient 1.  A pass, then one with two QPs, the second with |x| <= 1/2. *)
Definition ex_aff (c k : R) : aff R := {| a_const := c; a_coeffs := [k]; a_vars := [0%nat] |}.
Definition ex_cnts : list (bool * aff R) := [(true, ex_aff (-4) 1)].
Definition ex_pass (solves : list (list R * list R * list R)) : cpass R :=
  {| p_costs := [[OpHinge (ex_aff 1 (-1)) 2]]; p_cnts := [{| cc_eqs := [ex_aff 0 1]; cc_ineqs := [] |}]; p_mu := [1]; p_solves := solves |}.
Definition ex_first : cpass R := ex_pass [([-2], [2], [3])].
Definition ex_second : cpass R := ex_pass [([-1], [1], [4]); ([-(1/2)], [1/2], [5])].
Lemma ex_value c k x : aff_value (ex_aff c k) [x] = c + k * x.
Proof. rewrite aff_value_sum. cbn [ex_aff a_const a_coeffs a_vars combine]. rewrite !rsum_cons, !rsum_nil. cbn [fst snd nth]. lra. Qed.
Example C131_hypotheses : sqp_ok 1000 [(-5, 5)] ex_cnts [ex_first] ex_second.
Proof.
  assert (A : forall c k, aff_in (length [(-5, 5)]) (ex_aff c k)).
  { intros c k. split; [reflexivity|]. constructor; [cbn; lia|constructor]. }
  assert (P : forall l, Forall (fun b : list R * list R * list R => length (fst (fst b)) = 1%nat /\ length (snd (fst b)) = 1%nat) l -> pass_ok 1000 (length [(-5, 5)]) (ex_pass l)).
  { intros l Hl. unfold pass_ok. cbn [ex_pass p_costs p_cnts p_mu p_solves cc_eqs cc_ineqs app length]. split.
    - constructor; [|constructor]. constructor; [|constructor]. cbn [op_ok op_small]. split; [split; [apply A|lra]|]. unfold small. cbn; lra.
    - split; [|split; [reflexivity|split; [constructor; [lra|constructor]|exact Hl]]]. constructor; [|constructor]. cbn [cc_eqs cc_ineqs app]. constructor; [|constructor]. split; [apply A|].
      unfold small. cbn; lra. }
  split; [lra|]. split.
  - constructor; [|constructor]. split; [apply A|]. unfold small. cbn; lra.
  - constructor; [|constructor; [|constructor]]; apply P.
    + constructor; [split; reflexivity|]. constructor; [split; reflexivity|constructor].
    + constructor; [split; reflexivity|constructor].
Qed.
Lemma ex_merit l x : convex_merit (ex_pass l) [x] = 2 * Rmax (1 - x) 0 + Rabs x.
Proof.
  unfold convex_merit. cbn [ex_pass p_costs p_cnts p_mu combine]. rewrite !rsum_cons, !rsum_nil. cbn [op_exact fst snd cc_eqs cc_ineqs]. rewrite !rsum_cons, !rsum_nil, !ex_value.
  replace (1 + -1 * x) with (1 - x) by ring. replace (0 + 1 * x) with x by ring. ring.
Qed.
Lemma ex_weight l : cost_weight (ex_pass l) = 2 /\ cnt_weight (ex_pass l) = 3.
Proof. unfold cost_weight, cnt_weight. cbn [ex_pass p_costs p_cnts p_mu combine]. rewrite !rsum_cons, !rsum_nil. cbn [op_weight fst snd cc_eqs cc_ineqs length INR]. rewrite ?rsum_cons, ?rsum_nil. cbn [op_weight]. lra. Qed.
Lemma ex_allowed x : allowed 1000 0 ex_cnts [-(1/2)] [1/2] [x] <-> -(1/2) <= x <= 1/2.
Proof.
  unfold allowed. split.
  - intros [_ B]. specialize (B 0%nat). cbn [length nth] in B. unfold near in B. specialize (B ltac:(lia)). lra.
  - intros B. split.
    + intros c [<-|[]]. unfold cnt_near. cbn [fst snd]. rewrite ex_value. lra.
    + intros i Hi. destruct i; [|cbn in Hi; lia]. cbn [nth]. unfold near. lra.
Qed.
(** the best point is 1/2, where the merit is 3/2 *)
Lemma ex_best : best_step 1000 0 0 ex_cnts [-(1/2)] [1/2] ex_second [1/2].
Proof.
  split; [apply ex_allowed; lra|]. intros [|z [|]] L A; try discriminate. apply ex_allowed in A. unfold ex_second. rewrite !ex_merit.
  unfold Rmax, Rabs. destruct (Rle_dec _ _), (Rcase_abs _), (Rle_dec _ _), (Rcase_abs _); lra.
Qed.
Lemma ex_only x : best_step 1000 0 0 ex_cnts [-(1/2)] [1/2] ex_second [x] -> x = 1/2.
Proof.
  intros [A K]. apply ex_allowed in A. specialize (K [1/2] eq_refl ltac:(apply ex_allowed; lra)). unfold ex_second in K. rewrite !ex_merit in K. revert K.
  unfold Rmax, Rabs. destruct (Rle_dec _ _), (Rcase_abs _), (Rle_dec _ _), (Rcase_abs _); lra.
Qed.
Example C131_example : forall (run : osqp_run R), osqp_honest 1000 0 0 run -> osqp_able 1000 run ->
  exists s s' vals, osqp_steps 1000 64 false true empty_omodel (translate (fun _ => run) 0 (sqp_calls 1000 [(-5, 5)] ex_cnts [ex_first] ex_second [([-1], [1], [4])] [-(1/2)] [1/2])) = Ok s /\
    osqp_optimize 1000 64 false true run s = Ok (s', CvxSolved) /\ var_values (om_b s') (om_sol s') = map Some vals /\ firstn 1 vals = [1/2] /\
    model_merit (om_b s') (created 1000 [(-5, 5)] ex_cnts [ex_first]) ex_second vals = 3/2.
Proof.
  intros run H A.
  destruct (C131_osqp 1000 0 0 64 true (fun _ => run) _ _ _ _ [([-1], [1], [4])] [-(1/2)] [1/2] [5] [] C131_hypotheses eq_refl (fun _ => H)) as (s & s' & st & E1 & E2 & K1 & _ & K3).
  assert (Es : st = CvxSolved) by (apply K3; [exact A|]; exists [1/2]; split; [reflexivity|exact ex_best]). subst st. destruct (K1 eq_refl) as (vals & V & L & B).
  exists s, s', vals. split; [exact E1|]. split; [exact E2|]. split; [exact V|].
  pose proof (C132_osqp 1000 0 0 64 true (fun _ => run) _ _ _ _ [([-1], [1], [4])] [-(1/2)] [1/2] [5] [] s s' vals C131_hypotheses eq_refl (fun _ => H) E1 E2 V) as [F1 F2].
  clear K1 K3 E1 E2 V. set (m := model_merit _ _ _ _) in *. clearbody m. clear s s'. change (length [(-5, 5)]) with 1%nat in *.
  destruct vals as [|x vals]; [discriminate|]. cbn [firstn] in *. apply ex_only in B. subst x. split; [reflexivity|].
  specialize (F2 [1/2] eq_refl ltac:(apply ex_allowed; lra)). destruct (ex_weight (p_solves ex_second)) as [W1 W2]. unfold ex_second in F1, F2. rewrite !ex_merit in F1. rewrite !ex_merit in F2.
  cbn [p_solves ex_second ex_pass] in W1, W2. rewrite W1 in F1. rewrite W2 in F2. revert F1 F2. unfold Rmax, Rabs. destruct (Rle_dec _ _), (Rcase_abs _); lra.
Qed.
(** around x = 0, where the merit is 2, the model promises an improvement of 1/2 *)
Example C132_example : fair_merit 1000 0 0 ex_cnts (box_lo [-5] [5] [0] (1/2)) (box_hi [-5] [5] [0] (1/2)) ex_second [1/2] (3/2) /\ convex_merit ex_second [0] - 3/2 = 1/2.
Proof.
  assert (E : box_lo [-5] [5] [0] (1/2) = [-(1/2)] /\ box_hi [-5] [5] [0] (1/2) = [1/2]).
  { unfold box_lo, box_hi, trust_boxes. cbn [combine map fst snd trust_box1]. unfold trust_box1. rewrite nmax_R, nmin_R. unfold nclamp. rnum. rdec. rdec. cbn [fst snd].
    rewrite Rmax_left, Rmin_left by lra. split; apply (f_equal (fun v => [v])); lra. }
  destruct E as [-> ->]. destruct (ex_weight (p_solves ex_second)) as [W1 W2]. cbn [p_solves ex_second ex_pass] in W1, W2. split; [split|].
  - unfold ex_second. rewrite ex_merit, W1. unfold Rmax, Rabs. destruct (Rle_dec _ _), (Rcase_abs _); lra.
  - intros [|z [|]] L A; try discriminate. apply ex_allowed in A. unfold ex_second. rewrite ex_merit, W2. unfold Rmax, Rabs. destruct (Rle_dec _ _), (Rcase_abs _); lra.
  - unfold ex_second. rewrite ex_merit. unfold Rmax, Rabs. destruct (Rle_dec _ _), (Rcase_abs _); lra.
Qed.
