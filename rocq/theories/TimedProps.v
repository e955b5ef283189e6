(** * ConstructProblem and OptimizeProblem for joint space problems with time (C139) *)
From Coq Require Import List ZArith Bool Arith Reals Lra Lia Permutation.
From Verif Require Import Num NumFacts RSums Common BackendModel SolveModel SolveSpec SolveProps ScoExprModel ScoExprProofs ModelingModel ModelingSpec ModelingProofs ScoOptModel ScoOptProofs ScoOptProps MeritModel MeritSpec MeritProofs MeritProps RunModel RunSpec RunProofs RunProps ArrayModel ArrayProps ModelingProps KinProofs KinTimeProps TrajCostModel TrajCostProps TrajoptModel LayoutProps HatchProps ConstructProps KinModel PlanModel PlanSpec PlanProofs PlanProps TimedModel TimedSpec TimedProofs.
From Verif Require BackendProps.
Import ListNotations.
Local Open Scope R_scope.

(** A timed plan that makes sense gives a problem with a variable for each joint and step and one for the inverse of each time step,
    within their limits, linear constraints that hold exactly at the trajectories that are at the initial values where fixed, the costs
    asked for in their order, a velocity term with time giving one for each joint, and the constraints asked for, equality constraints
    first; none of their values fails.  Velocities are differences over the time of the step; the total time is the sum of the times. *)
Theorem C139_built :
  forall inf eps big quick least p rtl, tplan_ok p inf eps big quick least -> exists b, tconstruct rtl p = Done b /\
    let m := tp_steps p in let d := length (tp_limits p) in
    Z.of_nat (length (tb_vars b)) = (m * (Z.of_nat d + 1))%Z /\
    (forall i j, (0 <= i < m)%Z -> (0 <= j <= Z.of_nat d)%Z -> nth (Z.to_nat (i * (Z.of_nat d + 1) + j)) (map (bounds_of inf) (tb_vars b)) (0, 0) = tlimits p j) /\
    (length (traj_vec (tb_init b)) = length (tb_vars b) /\ forall i j, (0 <= i < m)%Z -> (0 <= j <= Z.of_nat d)%Z -> ttraj_of p (traj_vec (tb_init b)) i j = tinitial p i j) /\
    (forall x, (forall e, In e (tb_fixed b) -> aff_value e x = 0) <-> forall i j, fixed (base p) i j -> ttraj_of p x i j = initial (base p) i j) /\
    let timed x := forall i, (0 <= i < m)%Z -> 0 < ttraj_of p x i (Z.of_nat d) in
    (forall x, timed x -> Forall2 (fun q a => exists v, tcost_value a x = Ok v /\ part_cost m d q (ttraj_of p x) v) (parts d (tp_costs p)) (tget_costs b)) /\
    exists eqs ineqs, Permutation (eqs ++ ineqs) (parts d (tp_cnts p)) /\ Forall (part_exact d) eqs /\ Forall (fun q => ~ part_exact d q) ineqs /\
      forall x, timed x -> Forall2 (fun q a => exists v, tcnt_viol a x = Ok v /\ part_viol m d q (ttraj_of p x) v) (eqs ++ ineqs) (tget_cnts b).
Proof.
  intros inf eps big quick least p rtl OK. destruct (tbuilt_done inf eps big quick least p rtl OK) as (b & ca & na & E & BF). exists b. split; [exact E|]. pose proof BF as (_ & Lv & Bv & St & B1 & B2 & _). pose proof OK as (Hm & Hd & _). cbn zeta.
  split; [rewrite Lv; unfold tcount; rewrite Nat2Z.inj_mul, Z2Nat.id by lia; f_equal; lia|]. split; [exact Bv|]. split; [destruct (ttraj_vec_facts p (tb_init b) St) as [L1 L2]; split; [rewrite Lv; exact L1|exact L2]|]. split.
  { intros x. split.
    - intros H i j Hf. destruct (B2 i j Hf) as (e & He & V). specialize (H e He). rewrite V in H. lra.
    - intros H e He. destruct (B1 e He) as (_ & _ & i & j & Hf & V). rewrite V, (H i j Hf). lra. }
  split.
  { intros x _. rewrite (tcosts_are inf eps big quick least p b ca na OK BF). eapply forall2_weaken; [|exact (tcosts_facts inf eps big quick least p b ca na OK BF x)]. intros t a _ [H _]. exact H. }
  destruct (tcnts_split inf eps big quick least p b ca na OK BF) as (eqs & ineqs & P1 & P2 & P3 & P4). exists eqs, ineqs. split; [exact P1|]. split; [exact P2|]. split; [exact P3|]. intros x _. rewrite (tcnts_are inf eps big quick least p b ca na OK BF).
  eapply forall2_weaken; [|exact (P4 x)]. intros t a _ [H _]. exact H.
Qed.
Print Assumptions C139_built.

(** ** Runs *)
Lemma ttrajectory p vars (x : list R) rows : cells vars (tp_steps p) (Z.of_nat (length (tp_limits p)) + 1) (tcell p) -> get_traj x vars = Some rows ->
  Z.of_nat (length rows) = tp_steps p /\ Forall (fun r => length r = (length (tp_limits p) + 1)%nat) rows /\
  forall i j, (0 <= i < tp_steps p)%Z -> (0 <= j <= Z.of_nat (length (tp_limits p)))%Z -> traj_at rows i j = ttraj_of p x i j.
Proof.
  intros Hc E. destruct (C58_get_traj vars _ _ _ x Hc) as (rows' & E' & L & H). rewrite E in E'. injection E' as <-. split; [exact L|]. split.
  - apply Forall_forall. intros r Hr. destruct (In_nth_error _ _ Hr) as (k & Ek). assert (Hk : (k < length rows)%nat) by (apply nth_error_Some; congruence).
    destruct (H (Z.of_nat k) 0%Z ltac:(lia) ltac:(lia)) as (row & Er & Lr & _). rewrite Nat2Z.id, Ek in Er. injection Er as <-. lia.
  - intros i j Hi Hj. destruct (H i j Hi ltac:(lia)) as (row & Er & _ & Ej). unfold traj_at. rewrite (nth_error_nth _ _ [] Er), (nth_error_nth _ _ 0 Ej). reflexivity.
Qed.

Section TRuns.
  Context {C : Type} (inf eps delta big quick least : R) (lib : library) (tmax : R) (callback : C -> C) (clock : C -> C * R) (rtl : bool) (p : tplan) (b : tbuilt).
  Hypothesis OK : tplan_ok p inf eps big quick least.
  Hypothesis Eb : tconstruct rtl p = Done b.
  Local Notation F := (tas_prob inf b).
  Local Notation P := (plan_params tmax).
  Local Notation x0 := (traj_vec (tb_init b)).
  Local Notation m := (tp_steps p).
  Local Notation d := (length (tp_limits p)).
  Local Notation go fuel c := (run_sqp inf lib F P callback clock fuel x0 (ndec 1 (-1)) c).
  Local Notation opt fuel c := (optimize_timed inf lib tmax callback clock fuel b c).

  Lemma tthe_facts : exists ca na, tbuilt_facts inf p b ca na.
  Proof using OK Eb. destruct (tbuilt_done inf eps big quick least p rtl OK) as (b' & ca & na & E & BF). rewrite Eb in E. injection E as <-. exists ca, na. exact BF. Qed.
  Lemma trun_ok : prob_ok inf eps F x0 /\ length x0 = length (f_vars F) /\ f_vars F <> [] /\ length (f_vars F) = tcount p.
  Proof using OK Eb.
    destruct tthe_facts as (ca & na & BF). pose proof (tvars_count inf p b ca na BF) as Lv. split; [apply (tas_prob_ok inf eps big quick least p b ca na OK BF)|]. split; [rewrite Lv; destruct BF as (_ & _ & _ & St & _); apply (ttraj_vec_facts p _ St)|]. split; [|exact Lv].
    intros N. rewrite N in Lv. pose proof (tcount_pos inf eps big quick least p OK). cbn in Lv. lia.
  Qed.
  Lemma topt_inv fuel c ans s : opt fuel c = Ok (Done (ans, s)) ->
    go fuel c = Ok (Some (an_status ans, s)) /\ get_traj (o_x s) (tb_cells b) = Some (an_traj ans) /\ an_costs ans = o_cost_vals s /\ an_viols ans = o_cnt_viols s.
  Proof using.
    unfold optimize_timed. destruct (negb _); [discriminate|]. destruct (go fuel c) as [[[st s']|]| |]; cbn [obind]; try discriminate. destruct (get_traj (o_x s') (tb_cells b)) as [rows|] eqn:Eg; [|discriminate].
    intros [= <- <-]. cbn. auto.
  Qed.
  Lemma topt_of fuel c st s : go fuel c = Ok (Some (st, s)) -> exists ans, opt fuel c = Ok (Done (ans, s)) /\ an_status ans = st.
  Proof using OK Eb.
    intros E. destruct trun_ok as (_ & L & _ & Lc). destruct tthe_facts as (ca & na & BF). unfold optimize_timed. rewrite L. cbn [f_vars tas_prob]. rewrite map_length, Nat.eqb_refl. cbn [negb]. rewrite E. cbn [obind].
    destruct (C58_get_traj (tb_cells b) _ _ _ (o_x s) (proj1 BF)) as (rows & -> & _). eexists. split; reflexivity.
  Qed.
  Lemma tthe_traj fuel c ans s : opt fuel c = Ok (Done (ans, s)) -> Z.of_nat (length (an_traj ans)) = m /\ Forall (fun r => length r = (d + 1)%nat) (an_traj ans) /\
    forall i j, (0 <= i < m)%Z -> (0 <= j <= Z.of_nat d)%Z -> traj_at (an_traj ans) i j = ttraj_of p (o_x s) i j.
  Proof using OK Eb. intros E. apply topt_inv in E as (_ & E & _). destruct tthe_facts as (ca & na & BF). apply (ttrajectory p (tb_cells b) (o_x s) _ (proj1 BF) E). Qed.

  (** the values of a part are those of any trajectory with the same numbers *)
  Definition same (X Y : Z -> Z -> R) : Prop := forall i j, (0 <= i < m)%Z -> (0 <= j <= Z.of_nat d)%Z -> X i j = Y i j.
  Lemma speed_same X Y t j i : same X Y -> (0 <= first_step m t)%Z -> (last_step m t < m)%Z -> (0 <= j < Z.of_nat d)%Z -> (first_step m t <= i < last_step m t)%Z ->
    fast d t X i j = fast d t Y i j /\ slow d t X i j = slow d t Y i j.
  Proof using. intros H F1 L1 Hj Hi. unfold fast, slow, speed, step_time. rewrite !(H (i + 1)%Z), (H i) by lia. auto. Qed.
  Lemma steps_same t h g : (forall i, (first_step m t <= i < last_step m t)%Z -> h i = g i) -> over_steps m t h = over_steps m t g.
  Proof using. intros H. unfold over_steps. apply bigsum_ext. intros k Hk. apply H. lia. Qed.
  Lemma time_same X Y : same X Y -> duration m d X = duration m d Y.
  Proof using. intros H. unfold duration. apply bigsum_ext. intros k Hk. unfold step_time. rewrite H by lia. reflexivity. Qed.
  Definition in_reach (ty : Z) (q : part) : Prop :=
    match q with PJoint t => term_ok m d t inf ty | PSpeed t j => (0 <= j < Z.of_nat d)%Z /\ (0 <= first_step m t)%Z /\ (last_step m t < m)%Z | PTime _ _ => True end.
  Lemma reach s ty ts : s = SideCost /\ ty = TT_COST \/ s = SideCnt /\ ty = TT_CNT -> (forall t, In t ts -> tterm_ok m d inf big quick least ty t) -> forall q, In q (parts d ts) -> in_reach ty q.
  Proof using OK Eb.
    intros Hs Ht q Hq. destruct tthe_facts as (ca & na & BF). pose proof (tfacts inf eps big quick least p OK) as (Hm1 & Hd1 & _). unfold parts in Hq. apply in_flat_map in Hq as (t & Hin & Hq).
    destruct (hatched_parts inf big quick least m d (tcell p) Hd1 Hm1 s ty (tb_cells b) t (proj1 BF) Hs (Ht t Hin)) as (bs & _ & F1 & F2). rewrite Forall_forall in F2. specialize (F2 q Hq). destruct (forall2_in_l _ _ _ q F1 Hq) as (o & _ & Ho).
    destruct q as [u|u j|c l]; cbn [in_reach part_ok part_obj] in *; [exact F2| |exact I]. destruct Ho as (e & _ & A & B & _). split; [apply F2|]. lia.
  Qed.
  Lemma cost_reach q : In q (parts d (tp_costs p)) -> in_reach TT_COST q.
  Proof using OK Eb. apply (reach SideCost TT_COST); [left; auto|]. intros t Ht. apply (tcost_ok inf eps big quick least p OK t Ht). Qed.
  Lemma cnt_reach q : In q (parts d (tp_cnts p)) -> in_reach TT_CNT q.
  Proof using OK Eb. apply (reach SideCnt TT_CNT); [right; auto|]. intros t Ht. apply (tcnt_ok inf eps big quick least p OK t Ht). Qed.
  Lemma tdev_same t ty X Y : term_ok m d t inf ty -> same X Y -> forall i j, in_term m d t i j -> dev d t X i j = dev d t Y i j.
  Proof using.
    intros Ht H i j Hij. destruct (term_sizes inf m d t ty Ht) as (_ & _ & _ & _ & Fi). unfold fits in Fi. unfold in_term in Hij. unfold dev, difference. destruct (fst t); cbn [steps] in Fi, Hij; rewrite ?H by lia; reflexivity.
  Qed.
  Lemma part_cost_same q X Y v : in_reach TT_COST q -> same X Y -> part_cost m d q X v -> part_cost m d q Y v.
  Proof using.
    intros Hq H HC. destruct q as [t|t j|c l]; cbn [part_cost in_reach] in *.
    - destruct HC as [C1 C2]. pose proof (tdev_same t TT_COST X Y Hq H) as D. split; intros E; [rewrite (C1 E)|rewrite (C2 E)]; apply over_ext; intros i j Hij; [|unfold excess]; rewrite (D i j Hij); reflexivity.
    - destruct HC as [C1 C2]. destruct Hq as (Hj & F1 & L1). split; intros E; [rewrite (C1 E)|rewrite (C2 E)]; apply steps_same; intros i Hi; destruct (speed_same X Y t j i H F1 L1 Hj Hi) as [-> ->]; reflexivity.
    - rewrite (time_same X Y H) in HC. exact HC.
  Qed.
  Lemma part_viol_same q X Y v : in_reach TT_CNT q -> same X Y -> part_viol m d q X v -> part_viol m d q Y v.
  Proof using.
    intros Hq H HC. destruct q as [t|t j|c l]; cbn [part_viol in_reach] in *.
    - destruct HC as [C1 C2]. pose proof (tdev_same t TT_CNT X Y Hq H) as D. split; intros E; [rewrite (C1 E)|rewrite (C2 E)]; apply over_ext; intros i j Hij; [|unfold excess]; rewrite (D i j Hij); reflexivity.
    - destruct HC as [C1 C2]. destruct Hq as (Hj & F1 & L1). split; intros E; [rewrite (C1 E)|rewrite (C2 E)]; apply steps_same; intros i Hi; destruct (speed_same X Y t j i H F1 L1 Hj Hi) as [-> ->]; reflexivity.
    - rewrite (time_same X Y H) in HC. exact HC.
  Qed.
End TRuns.

(** OptimizeProblem meets no exception or failed assertion, and ends. *)
Theorem C139_ends :
  forall (C : Type) inf eps delta big quick least (lib : library) tmax (callback : C -> C) clock rtl p b c,
    tplan_ok p inf eps big quick least -> tconstruct rtl p = Done b -> honest inf eps delta lib ->
    (forall fuel, optimize_timed inf lib tmax callback clock fuel b c = NoFuel \/ exists r, optimize_timed inf lib tmax callback clock fuel b c = Ok (Done r)) /\
    exists K r, forall fuel, (K <= fuel)%nat -> optimize_timed inf lib tmax callback clock fuel b c = Ok (Done r).
Proof.
  intros C inf eps delta big quick least lib tmax callback clock rtl p b c OK Eb HR. destruct (trun_ok inf eps big quick least rtl p b OK Eb) as (R1 & R2 & R3 & _). split.
  - intros fuel. destruct (C133_no_abort C inf eps delta lib (tas_prob inf b) (plan_params tmax) callback clock fuel (traj_vec (tb_init b)) (ndec 1 (-1)) c R1 (plan_params_ok tmax) HR R2 R3) as [E|(st & s & m & E & _)].
    + left. unfold optimize_timed. cbn [f_vars tas_prob] in R2. rewrite map_length in R2. rewrite R2, Nat.eqb_refl. cbn [negb]. rewrite E. reflexivity.
    + right. destruct (topt_of inf eps big quick least lib tmax callback clock rtl p b OK Eb fuel c st s E) as (ans & -> & _). eexists. reflexivity.
  - destruct (params_values tmax) as (V1 & _ & _ & _ & V2 & _).
    destruct (C133_ends C inf eps delta lib (tas_prob inf b) (plan_params tmax) callback clock (traj_vec (tb_init b)) (ndec 1 (-1)) c R1 (plan_params_ok tmax) HR R2 R3) as (K & st & s & H); [rewrite V2; lra|rewrite V1; lra|].
    destruct (topt_of inf eps big quick least lib tmax callback clock rtl p b OK Eb K c st s (H K (le_n K))) as (ans & E & _). exists K, (ans, s). intros fuel Hf.
    destruct (topt_of inf eps big quick least lib tmax callback clock rtl p b OK Eb fuel c st s (H fuel Hf)) as (ans' & E' & _). rewrite E'. f_equal. f_equal. f_equal.
    destruct (topt_inv inf lib tmax callback clock b K c ans s E) as (A1 & A2 & A3 & A4). destruct (topt_inv inf lib tmax callback clock b fuel c ans' s E') as (B1 & B2 & B3 & B4).
    rewrite (H K (le_n K)) in A1. rewrite (H fuel Hf) in B1. destruct ans as [a1 a2 a3 a4], ans' as [c1 c2 c3 c4]. cbn in *. congruence.
Qed.
Print Assumptions C139_ends.

(** The trajectory returned has a value for each step, joint and time step; it is within limits and fixed values up to the solver's
    tolerance, or it is the initial one moved down where within 1/1000 of an upper limit or above.  All time steps are positive and
    finite. *)
Theorem C139_limits :
  forall (C : Type) inf eps delta big quick least (lib : library) tmax (callback : C -> C) clock rtl p b c fuel ans s,
    tplan_ok p inf eps big quick least -> tconstruct rtl p = Done b -> honest inf eps delta lib ->
    optimize_timed inf lib tmax callback clock fuel b c = Ok (Done (ans, s)) ->
    let m := tp_steps p in let d := length (tp_limits p) in let X := traj_at (an_traj ans) in
    Z.of_nat (length (an_traj ans)) = m /\ Forall (fun r => length r = (d + 1)%nat) (an_traj ans) /\
    (twithin p inf eps X \/ forall i j, (0 <= i < m)%Z -> (0 <= j <= Z.of_nat d)%Z -> X i j = Rmin (snd (tlimits p j) - 1 / 1000) (tinitial p i j)) /\
    forall i, (0 <= i < m)%Z -> / quick <= step_time d X i <= / least.
Proof.
  intros C inf eps delta big quick least lib tmax callback clock rtl p b c fuel ans s OK Eb HR E m d X. destruct (trun_ok inf eps big quick least rtl p b OK Eb) as (R1 & R2 & R3 & R4). destruct (tthe_facts inf eps big quick least rtl p b OK Eb) as (ca & na & BF).
  destruct (tthe_traj inf eps big quick least lib tmax callback clock rtl p b OK Eb fuel c ans s E) as (T1 & T2 & T3). split; [exact T1|]. split; [exact T2|]. apply topt_inv in E as (E & _).
  destruct (C133_limits C inf eps delta lib (tas_prob inf b) (plan_params tmax) callback clock fuel (traj_vec (tb_init b)) (ndec 1 (-1)) c _ s R1 (plan_params_ok tmax) HR R2 R3 E) as (Lx & V). split.
  - destruct V as [Ex|K].
    + right. intros i j Hi Hj. unfold X. rewrite (T3 i j Hi Hj), Ex. apply (start_point inf p b ca na BF i j Hi Hj).
    + left. destruct (keeps_point inf eps p b ca na BF (o_x s) K) as [K1 K2]. split; intros i j.
      * intros Hi Hj. unfold X. rewrite (T3 i j Hi Hj). apply K1; assumption.
      * intros Hf. pose proof Hf as ((Hi & Hj) & _). unfold X. rewrite (T3 i j Hi) by (change (dofs (base p)) with (length (tp_limits p)) in Hj; lia). apply K2, Hf.
  - intros i Hi. pose proof (visited_point inf eps big quick least p b ca na OK BF (o_x s) V i Hi) as [_ [B1 B2]]. unfold step_time, X. rewrite (T3 i (Z.of_nat d) Hi) by (unfold d; lia). change (least <= ttraj_of p (o_x s) i (Z.of_nat d)) in B1. change (ttraj_of p (o_x s) i (Z.of_nat d) <= quick) in B2.
    pose proof (tfacts inf eps big quick least p OK) as (_ & _ & Hl & _). split; apply Rinv_le_contravar; lra.
Qed.
Print Assumptions C139_limits.

(** If the time limit is not passed, the costs and violations reported are those of the trajectory returned. *)
Theorem C139_reported :
  forall (C : Type) inf eps delta big quick least (lib : library) tmax (callback : C -> C) clock rtl p b c fuel ans s,
    tplan_ok p inf eps big quick least -> tconstruct rtl p = Done b -> honest inf eps delta lib -> (forall c, snd (clock c) <= tmax) ->
    optimize_timed inf lib tmax callback clock fuel b c = Ok (Done (ans, s)) ->
    let m := tp_steps p in let d := length (tp_limits p) in let X := traj_at (an_traj ans) in
    Forall2 (fun q v => part_cost m d q X v) (parts d (tp_costs p)) (an_costs ans) /\
    (exists eqs ineqs, Permutation (eqs ++ ineqs) (parts d (tp_cnts p)) /\ Forall (part_exact d) eqs /\ Forall (fun q => ~ part_exact d q) ineqs /\
       Forall2 (fun q v => part_viol m d q X v) (eqs ++ ineqs) (an_viols ans)) /\
    (an_status ans = OPT_CONVERGED -> Forall (fun v => v < 1 / 10000) (an_viols ans)).
Proof.
  intros C inf eps delta big quick least lib tmax callback clock rtl p b c fuel ans s OK Eb HR Hclk E m d X. destruct (tthe_facts inf eps big quick least rtl p b OK Eb) as (ca & na & BF).
  destruct (tthe_traj inf eps big quick least lib tmax callback clock rtl p b OK Eb fuel c ans s E) as (_ & _ & T3). apply topt_inv in E as (E & _ & -> & ->).
  assert (Hc : forall w, snd (o_clock (run_env inf lib (tas_prob inf b) callback clock) w) <= omax_time (plan_params tmax)).
  { intros w. cbn [o_clock run_env]. specialize (Hclk (w_rest w)). destruct (clock (w_rest w)) as [c' el]. exact Hclk. }
  pose proof (evaluated (plan_params tmax) (run_env inf lib (tas_prob inf b) callback clock) fuel (traj_vec (tb_init b)) (run_start inf lib (tas_prob inf b) (traj_vec (tb_init b)) (ndec 1 (-1)) c) (an_status ans) s Hc ltac:(cbn; lra) E) as Ne.
  destruct (C10_values_of_x_partial R _ _ (plan_params tmax) (run_env inf lib (tas_prob inf b) callback clock) fuel (traj_vec (tb_init b)) (run_start inf lib (tas_prob inf b) (traj_vec (tb_init b)) (ndec 1 (-1)) c) (an_status ans) s eq_refl E) as [(_ & _ & _ & N)|(V1 & V2 & _)]; [contradiction|].
  assert (Sm : same p (ttraj_of p (o_x s)) X) by (intros i j Hi Hj; symmetry; apply T3; assumption).
  cbn [o_costs o_viols run_env] in V1, V2. rewrite V1, V2. split; [|split].
  - eapply forall2_weaken; [|exact (tvalues_cost inf eps big quick least p b ca na OK BF (o_x s))]. intros q v Hq H. apply (part_cost_same inf p q (ttraj_of p (o_x s))); [apply (cost_reach inf eps big quick least rtl p b OK Eb q Hq)|exact Sm|exact H].
  - destruct (tcnts_split inf eps big quick least p b ca na OK BF) as (eqs & ineqs & P1 & P2 & P3 & P4). exists eqs, ineqs. split; [exact P1|]. split; [exact P2|]. split; [exact P3|]. cbn [f_viols tas_prob]. rewrite (tcnts_are inf eps big quick least p b ca na OK BF). apply forall2_map_r.
    eapply forall2_weaken; [|exact (P4 (o_x s))]. intros q a Hq ((v & -> & H) & _). cbn [value_or]. apply (part_viol_same inf p q (ttraj_of p (o_x s))); [apply (cnt_reach inf eps big quick least rtl p b OK Eb q), (Permutation_in _ P1), Hq|exact Sm|exact H].
  - intros Es. rewrite Es in E. destruct (C09_converged_feasible_partial R _ _ (plan_params tmax) (run_env inf lib (tas_prob inf b) callback clock) _ fuel (traj_vec (tb_init b)) (run_start inf lib (tas_prob inf b) (traj_vec (tb_init b)) (ndec 1 (-1)) c) s eq_refl E) as [(_ & N)|(_ & Fv)]; [contradiction|].
    cbn [o_viols run_env] in Fv. destruct (params_values tmax) as (_ & _ & _ & V4 & _). rewrite V4 in Fv. eapply Forall_impl; [|exact Fv]. intros v. cbn beta. intros H. apply Rltb_true. exact H.
Qed.
Print Assumptions C139_reported.

Lemma steps_bound p t h i : (forall i, 0 <= h i) -> (first_step (tp_steps p) t <= i < last_step (tp_steps p) t)%Z -> h i <= over_steps (tp_steps p) t h.
Proof.
  intros H Hi. unfold over_steps. set (n := Z.to_nat _). pose proof (bigsum_bound n (fun k => h (first_step (tp_steps p) t + Z.of_nat k)%Z) (Z.to_nat (i - first_step (tp_steps p) t))) as B. cbn beta in B.
  replace (first_step (tp_steps p) t + Z.of_nat (Z.to_nat (i - first_step (tp_steps p) t)))%Z with i in B by lia. apply B; [intros; apply H|unfold n; lia].
Qed.
(** If it says OPT_CONVERGED: the velocity of each joint, from each step of the range to the next, is within the tolerances of every
    velocity constraint with time, the total time is within the limit of every total time constraint, and the other joint constraints
    are met as for problems without time; each up to 1/10000 divided by the coefficient. *)
Theorem C139_converged :
  forall (C : Type) inf eps delta big quick least (lib : library) tmax (callback : C -> C) clock rtl p b c fuel ans s,
    tplan_ok p inf eps big quick least -> tconstruct rtl p = Done b -> honest inf eps delta lib -> (forall c, snd (clock c) <= tmax) ->
    optimize_timed inf lib tmax callback clock fuel b c = Ok (Done (ans, s)) -> an_status ans = OPT_CONVERGED ->
    let m := tp_steps p in let d := length (tp_limits p) in let X := traj_at (an_traj ans) in
    (forall t i j, In (TJoint t) (tp_cnts p) -> fst t = Vel -> has (jt_type (snd t)) TT_USE_TIME = true -> (first_step m t <= i < last_step m t)%Z -> (0 <= j < Z.of_nat d)%Z ->
       let k := coeff d t j in let v := (X (i + 1)%Z j - X i j) / (1 / X (i + 1)%Z (Z.of_nat d)) - target d t j in
       (is_exact d t -> Rabs k * Rabs (v - upper d t j) < 1 / 10000 /\ Rabs k * Rabs (lower d t j - v) < 1 / 10000) /\
       (~ is_exact d t -> k * (v - upper d t j) < 1 / 10000 /\ k * (lower d t j - v) < 1 / 10000)) /\
    (forall ty k l, In (TTotal ty k l) (tp_cnts p) ->
       let total := bigsum (Z.to_nat (m - 1)) (fun i => 1 / X (Z.of_nat i + 1)%Z (Z.of_nat d)) in
       (Rabs l < / 100000 -> Rabs k * Rabs (total - l) < 1 / 10000) /\ (~ Rabs l < / 100000 -> k * (total - l) < 1 / 10000)) /\
    (forall t i j, In (TJoint t) (tp_cnts p) -> fst t <> Vel \/ has (jt_type (snd t)) TT_USE_TIME = false -> in_term m d t i j ->
       let k := coeff d t j in let v := dev d t X i j in
       (is_exact d t -> Rabs k * (v * v) < 1 / 10000) /\ (~ is_exact d t -> k * (v - upper d t j) < 1 / 10000 /\ k * (lower d t j - v) < 1 / 10000)).
Proof.
  intros C inf eps delta big quick least lib tmax callback clock rtl p b c fuel ans s OK Eb HR Hclk E Es m d X.
  destruct (C139_reported C inf eps delta big quick least lib tmax callback clock rtl p b c fuel ans s OK Eb HR Hclk E) as (_ & (eqs & ineqs & P1 & _ & _ & P4) & Fv). specialize (Fv Es). fold m d X in P1, P4.
  assert (G : forall q, In q (parts d (tp_cnts p)) -> exists w, w < 1 / 10000 /\ part_viol m d q X w).
  { intros q Hq. destruct (forall2_in_l _ _ _ q P4 (Permutation_in _ (Permutation_sym P1) Hq)) as (w & Hw & W). rewrite Forall_forall in Fv. exists w. split; [apply Fv, Hw|exact W]. }
  assert (Gt : forall t q, In t (tp_cnts p) -> In q (parts_of d t) -> exists w, w < 1 / 10000 /\ part_viol m d q X w).
  { intros t q Ht Hq. apply G. apply in_flat_map. exists t. split; assumption. }
  split; [|split].
  - intros t i j Ht Vt Hu Hi Hj k v. destruct (Gt (TJoint t) (PSpeed t j) Ht) as (w & Hw & W1 & W2).
    { cbn [parts_of]. rewrite Hu, Vt. apply in_map. unfold joints. apply in_map_iff. exists (Z.to_nat j). split; [lia|]. apply in_seq. lia. }
    assert (Ef : fast d t X i j = v - upper d t j) by (unfold fast, speed, step_time, v, Rdiv; rewrite Rmult_1_l; ring). assert (El : slow d t X i j = lower d t j - v) by (unfold slow, speed, step_time, v, Rdiv; rewrite Rmult_1_l; ring).
    split; intros Ex.
    + specialize (W1 Ex). pose proof (steps_bound p t (fun i => Rabs (coeff d t j * fast d t X i j) + Rabs (coeff d t j * slow d t X i j)) i ltac:(intros q; pose proof (Rabs_pos (coeff d t j * fast d t X q j)); pose proof (Rabs_pos (coeff d t j * slow d t X q j)); lra) Hi) as B.
      cbn beta in B. fold m in B. rewrite <- W1, Ef, El in B. fold k in B. rewrite <- !Rabs_mult. pose proof (Rabs_pos (k * (v - upper d t j))). pose proof (Rabs_pos (k * (lower d t j - v))). lra.
    + specialize (W2 Ex). pose proof (steps_bound p t (fun i => Rmax (coeff d t j * fast d t X i j) 0 + Rmax (coeff d t j * slow d t X i j) 0) i ltac:(intros q; pose proof (Rmax_r (coeff d t j * fast d t X q j) 0); pose proof (Rmax_r (coeff d t j * slow d t X q j) 0); lra) Hi) as B.
      cbn beta in B. fold m in B. rewrite <- W2, Ef, El in B. fold k in B. set (e := k * (v - _)) in *. set (f := k * (_ - v)) in *. pose proof (Rmax_l e 0). pose proof (Rmax_r e 0). pose proof (Rmax_l f 0). pose proof (Rmax_r f 0). lra.
  - intros ty k l Ht total. destruct (Gt (TTotal ty k l) (PTime k l) Ht) as (w & Hw & W1 & W2); [left; reflexivity|].
    assert (Ed : duration m d X = total) by (unfold duration, total, step_time; apply bigsum_ext; intros; unfold Rdiv; rewrite Rmult_1_l; reflexivity). rewrite Ed in W1, W2. split; intros Ex.
    + rewrite <- Rabs_mult, <- (W1 Ex). exact Hw.
    + rewrite (W2 Ex) in Hw. pose proof (Rmax_l (k * (total - l)) 0). lra.
  - intros t i j Ht Hu Hij k v. assert (Gp : exists w, w < 1 / 10000 /\ part_viol m d (PJoint t) X w).
    { destruct (has (jt_type (snd t)) TT_USE_TIME) eqn:Et; [|apply (Gt (TJoint t) (PJoint t) Ht); cbn [parts_of]; rewrite Et; left; reflexivity].
      destruct Hu as [Hu|Hu]; [|discriminate]. destruct (Gt (TJoint t) (PJoint (untimed t)) Ht) as (w & W); [cbn [parts_of]; rewrite Et; destruct (fst t); [left; reflexivity|destruct (Hu eq_refl)|left; reflexivity|left; reflexivity]|]. exists w. exact W. }
    destruct Gp as (w & Hw & W1 & W2). split; intros Ex.
    + specialize (W1 Ex). pose proof (over_bound m d t (fun i j => Rabs (coeff d t j * (dev d t X i j * dev d t X i j))) i j ltac:(intros; apply Rabs_pos) Hij) as B. cbn beta in B. rewrite <- W1 in B. fold k v in B.
      rewrite Rabs_mult, (Rabs_right (v * v)) in B by (apply Rle_ge, Rle_0_sqr). lra.
    + specialize (W2 Ex). pose proof (over_bound m d t (excess d t X) i j ltac:(intros; apply excess_nonneg) Hij) as B. rewrite <- W2 in B. unfold excess in B. fold k v in B.
      set (e := k * (v - _)) in *. set (f := k * (_ - v)) in *. pose proof (Rmax_l e 0). pose proof (Rmax_r e 0). pose proof (Rmax_l f 0). pose proof (Rmax_r f 0). lra.
Qed.
Print Assumptions C139_converged.

(** ** Runs that end at once *)
Lemma neg_ok (r : list R) : Forall (fun c => c = 0 \/ 1 / 10 ^ 7 < Rabs c) r -> Forall (fun c => c = 0 \/ 1 / 10 ^ 7 < Rabs c) (map Ropp r).
Proof. intros H. rewrite Forall_map. eapply Forall_impl; [|exact H]. intros c [-> | Hc]; [left; lra|right; rewrite Rabs_Ropp; exact Hc]. Qed.
Lemma still_jac (x : list R) h : length x = (2 * h)%nat -> (0 < h)%nat -> (forall i, (i < h - 1)%nat -> nth (i + 1) x 0 = nth i x 0 /\ nth (h + 1 + i) x 0 = 1) ->
  exists rows, joint_vel_jac x = Ok rows /\ length rows = (2 * (h - 1))%nat /\ Forall (Forall (fun c => c = 0 \/ 1 / 10 ^ 7 < Rabs c)) rows.
Proof.
  intros Hx Hh Hs. destruct (vel_jac_eq x h Hx Hh) as (top & E & Lt & Lr & Ht). eexists. split; [exact E|]. split; [rewrite app_length, map_length; lia|].
  assert (F : Forall (Forall (fun c => c = 0 \/ 1 / 10 ^ 7 < Rabs c)) top).
  { apply Forall_forall. intros r Hr. destruct (In_nth _ _ [] Hr) as (i & Hi & <-). rewrite Lt in Hi. apply Forall_forall. intros c Hc. destruct (In_nth _ _ 0 Hc) as (k & Hk & <-). rewrite Lr in Hk by exact Hi. change (nth k (nth i top []) 0) with (ent top i k). rewrite (Ht i k Hi Hk).
    unfold dvel. destruct (Hs i Hi) as [-> ->]. unfold delta. assert (P7 : 1 / 10 ^ 7 < 1) by lra. destruct (i + 1 =? k)%nat eqn:E1, (i =? k)%nat eqn:E2, (h + 1 + i =? k)%nat; try (apply Nat.eqb_eq in E1; apply Nat.eqb_eq in E2; lia);
      try (left; ring); right; unfold Rabs; destruct (Rcase_abs _); lra. }
  apply Forall_app. split; [exact F|]. rewrite Forall_map. eapply Forall_impl; [|exact F]. intros r Hr. apply neg_ok. exact Hr.
Qed.
Lemma viol_of_cc (cc : ccnts R) x : convex_viol x cc = ccnts_violation cc x.
Proof.
  unfold convex_viol, ccnts_violation, ccnts_violations. rewrite vsum_R, Rsum_app. f_equal.
  fold (rsum (fun a => pospart (aff_value a x)) (cc_ineqs cc)). apply rsum_ext. intros. symmetry. apply pospart_Rmax.
Qed.

Section AtOnce.
  Context (inf big quick least : R) (rtl : bool) (p : tplan) (b : tbuilt) (lib : library) (tmax : R).
  Hypothesis OK : tplan_ok p inf 0 big quick least.
  Hypothesis Eb : tconstruct rtl p = Done b.
  Hypothesis Hr : honest inf 0 0 lib.
  Hypothesis Ha : forall i, able inf lib i.
  Hypothesis Ht : 0 <= tmax.
  (** no costs, and constraints on velocities and the total time; at rest, a unit of time for each step, away from the upper limits *)
  Hypothesis Hc : tp_costs p = [].
  Hypothesis Hn : forall q, In q (parts (length (tp_limits p)) (tp_cnts p)) -> match q with PJoint _ => False | _ => True end.
  Hypothesis Hs : forall i j, (0 <= i < tp_steps p)%Z -> (0 <= j < Z.of_nat (length (tp_limits p)))%Z -> initial (base p) i j = initial (base p) 0 j.
  Hypothesis Hd1 : tp_dt p = 1.
  Hypothesis Hlim : forall i j, (0 <= i < tp_steps p)%Z -> (0 <= j <= Z.of_nat (length (tp_limits p)))%Z -> fst (tlimits p j) <= tinitial p i j <= snd (tlimits p j) - 1 / 1000.
  Hypothesis Hv : forall q, In q (parts (length (tp_limits p)) (tp_cnts p)) -> part_viol (tp_steps p) (length (tp_limits p)) q (tinitial p) 0.
  Local Notation F := (tas_prob inf b).
  Local Notation m := (tp_steps p).
  Local Notation d := (length (tp_limits p)).
  Local Notation x1 := (projected F (traj_vec (tb_init b))).
  Lemma tprojected_at i j : (0 <= i < m)%Z -> (0 <= j <= Z.of_nat d)%Z -> ttraj_of p x1 i j = tinitial p i j.
  Proof using OK Eb Hlim.
    intros Hi Hj. destruct (tthe_facts inf 0 big quick least rtl p b OK Eb) as (ca & na & BF). unfold projected. rewrite (start_point inf p b ca na BF i j Hi Hj). apply Rmin_right. destruct (Hlim i j Hi Hj). lra.
  Qed.
  Lemma part_viol_fun q X v w : part_viol m d q X v -> part_viol m d q X w -> v = w.
  Proof using.
    destruct q as [t|t j|c l]; cbn [part_viol]; [apply term_viol_fun| |]; intros [A1 A2] [B1 B2].
    - destruct (exact_dec d t) as [E|E]; [rewrite (A1 E), (B1 E)|rewrite (A2 E), (B2 E)]; reflexivity.
    - destruct (Rlt_dec (Rabs l) (/ 100000)) as [E|E]; [rewrite (A1 E), (B1 E)|rewrite (A2 E), (B2 E)]; reflexivity.
  Qed.
  Lemma part_self q o : In q (parts d (tp_cnts p)) -> part_obj m d (tcell p) SideCnt q o -> tcnt_viol o x1 = Ok 0 -> exists cc, tcnt_convex o x1 = Ok cc /\ convex_viol x1 cc = 0.
  Proof using OK Eb Hlim Hn Hs Hd1.
    intros Hq Ho Ev. specialize (Hn q Hq). pose proof (proj1 (proj2 (tfacts inf 0 big quick least p OK))) as Hd0. pose proof (reach inf 0 big quick least rtl p b OK Eb SideCnt TT_CNT (tp_cnts p) ltac:(right; auto) (fun t H => tcnt_ok inf 0 big quick least p OK t H) q Hq) as Rq.
    assert (At : forall i j, (0 <= i < m)%Z -> (0 <= j <= Z.of_nat d)%Z -> nth (tcell p i j) x1 0 = tinitial p i j) by (intros i j Hi Hj; apply tprojected_at; assumption).
    assert (Tm : forall i, tinitial p i (Z.of_nat d) = 1) by (intros i; unfold tinitial; rewrite Z.eqb_refl; exact Hd1).
    destruct q as [t|t j|c l]; [destruct Hn| |]; cbn [part_obj in_reach] in *.
    - destruct Ho as (e & _ & R1 & R2 & ->). cbn [tcnt_viol tcnt_convex er_fun er_jac er_vars er_eq er_coeffs] in *. rewrite (speed_err m d (tcell p) Hd0 t j x1 (conj R1 R2)) in *. cbn [obind] in Ev.
      destruct (still_jac (get_vec x1 (column m (tcell p) t j ++ column m (tcell p) t (Z.of_nat d))) (Z.to_nat (last_step m t - first_step m t + 1))) as (rows & Ej & Lr & Fr).
      + apply (y_length m d (tcell p) Hd0 t j x1).
      + clear - R1; lia.
      + intros i Hi. destruct (y_nth m d (tcell p) Hd0 t j x1 (conj R1 R2) (i + 1)) as [-> A]; [lia|]. destruct (y_nth m d (tcell p) Hd0 t j x1 (conj R1 R2) i) as [-> _]; [lia|]. replace (Z.to_nat (last_step m t - first_step m t + 1) + 1 + i)%nat with (Z.to_nat (last_step m t - first_step m t + 1) + (i + 1))%nat by lia. rewrite A. rewrite !At by lia.
        split; [|apply Tm]. rewrite !tinitial_joint by lia. rewrite (Hs (first_step m t + Z.of_nat (i + 1))%Z), (Hs (first_step m t + Z.of_nat i)%Z) by lia. reflexivity.
      + rewrite Ej. cbn [obind]. eexists. split; [reflexivity|]. rewrite viol_of_cc, C39_constraint_convex; [congruence|exact Fr|rewrite (two_length d Hd0); lia|right; rewrite (two_length d Hd0), repeat_length; reflexivity].
    - destruct Ho as (e & _ & ->). cbn [tcnt_viol tcnt_convex er_fun er_jac er_vars er_eq er_coeffs obind] in *. eexists. split; [reflexivity|]. rewrite viol_of_cc, C39_constraint_convex; [congruence| |reflexivity|right; reflexivity].
      constructor; [|constructor]. rewrite Forall_map, times_vec, Forall_map. apply Forall_forall. intros k Hk. apply in_seq in Hk. rewrite At by lia. rewrite Tm. right. rnum. replace (-1 * (1 / (1 * 1))) with (-1) by field. rewrite Rabs_left; lra.
  Qed.
  Lemma tviols_zero : Forall (fun v => v = 0) (f_viols F x1) /\ Forall (fun cc => convex_viol x1 cc = 0) (f_ccnts F x1).
  Proof using OK Eb Hlim Hn Hs Hd1 Hv.
    destruct (tthe_facts inf 0 big quick least rtl p b OK Eb) as (ca & na & BF).
    assert (G : forall o, In o (tget_cnts b) -> tcnt_viol o x1 = Ok 0 /\ exists cc, tcnt_convex o x1 = Ok cc /\ convex_viol x1 cc = 0).
    { rewrite (tcnts_are inf 0 big quick least p b ca na OK BF). intros o Ho. assert (Hin : In o na) by (apply in_app_or in Ho as [Ho|Ho]; apply filter_In in Ho; apply Ho).
      destruct (forall2_in_r _ _ _ o (cnt_sides inf 0 big quick least p b ca na OK BF) Hin) as (q & Hq & Pq & Oq).
      pose proof (tfacts inf 0 big quick least p OK) as (Hm1 & Hd0 & Hl0 & _). destruct (part_viol_value inf big quick least m d (tcell p) (tcount p) (tcell_lt p) Hd0 q o x1 Oq Pq) as (v & E & V).
      change (part_viol m d q (ttraj_of p x1) v) in V. apply (part_viol_same inf p q _ (tinitial p)) in V; [|apply (cnt_reach inf 0 big quick least rtl p b OK Eb q Hq)|intros i j Hi Hj; apply tprojected_at; assumption].
      rewrite (part_viol_fun q _ _ _ V (Hv q Hq)) in E. split; [exact E|]. apply (part_self q o Hq Oq E). }
    cbn [f_viols f_ccnts tas_prob]. split; rewrite Forall_map; apply Forall_forall; intros o Ho; destruct (G o Ho) as (E & cc & Ec & Vc); [rewrite E; reflexivity|]. rewrite Ec. exact Vc.
  Qed.
  Lemma tconvex_nonneg mu x z : Forall (fun k => 0 <= k) mu -> 0 <= convex_merit (convexified F mu x) z.
  Proof using OK Eb Hc.
    intros Hm. destruct (tthe_facts inf 0 big quick least rtl p b OK Eb) as (ca & na & BF). unfold convex_merit, convexified. cbn [p_costs p_cnts p_mu f_ccosts tas_prob].
    assert (E : tget_costs b = []). { rewrite (tcosts_are inf 0 big quick least p b ca na OK BF). pose proof (cost_sides inf 0 big quick least p b ca na OK BF) as H. rewrite Hc in H. cbn in H. inversion H. reflexivity. }
    rewrite E. cbn [map]. rewrite rsum_nil, Rplus_0_l. apply rsum_nonneg. intros [k w] Hk. apply in_combine_r in Hk. rewrite Forall_forall in Hm. apply Hm in Hk. cbn [fst snd]. apply Rmult_le_pos; [exact Hk|]. apply Rplus_le_le_0_compat; apply rsum_nonneg; intros; [apply Rabs_pos|apply Rmax_r].
  Qed.
  Lemma tconvex_zero mu : convex_merit (convexified F mu x1) x1 = 0 /\ merit F mu x1 = 0.
  Proof using OK Eb Hlim Hn Hs Hd1 Hv Hc.
    destruct (tthe_facts inf 0 big quick least rtl p b OK Eb) as (ca & na & BF). destruct tviols_zero as [Z1 Z2].
    assert (E : tget_costs b = []). { rewrite (tcosts_are inf 0 big quick least p b ca na OK BF). pose proof (cost_sides inf 0 big quick least p b ca na OK BF) as H. rewrite Hc in H. cbn in H. inversion H. reflexivity. }
    split.
    - unfold convex_merit, convexified. cbn [p_costs p_cnts p_mu]. replace (f_ccosts F x1) with (@nil (list (op R))) by (cbn [f_ccosts tas_prob]; rewrite E; reflexivity). rewrite rsum_nil, Rplus_0_l. revert mu Z2. generalize (f_ccnts F x1). clear.
      intros l. induction l as [|a l IH]; intros [|k mu] H; cbn [combine]; rewrite ?rsum_nil; try reflexivity. apply Forall_cons_iff in H as [H1 H2]. rewrite rsum_cons, IH by exact H2. cbn [fst snd]. unfold convex_viol in H1. rewrite H1. lra.
    - unfold merit. replace (f_costs F x1) with (@nil R) by (cbn [f_costs tas_prob]; rewrite E; reflexivity). rewrite rsum_nil, Rplus_0_l. revert mu Z1. generalize (f_viols F x1). clear.
      intros l. induction l as [|a l IH]; intros [|k mu] H; cbn [combine]; rewrite ?rsum_nil; try reflexivity. apply Forall_cons_iff in H as [H1 H2]. rewrite rsum_cons, IH by exact H2. cbn [fst snd]. rewrite H1. lra.
  Qed.
  (** nothing to be gained at the start *)
  Lemma tstops z k : length z = tcount p -> allowed inf 0 (f_lin F) (box_lo (f_lb F) (f_ub F) x1 (1 / 10)) (box_hi (f_lb F) (f_ub F) x1 (1 / 10)) z ->
    (forall mu, convex_merit (convexified F mu x1) z = 0) -> (forall mu, merit F mu x1 = 0) -> Forall (fun v => v = 0) (f_viols F x1) ->
    exists ans s, optimize_timed inf lib tmax (fun u : unit => u) (fun u => (u, 0)) (S k) b tt = Ok (Done (ans, s)) /\ an_status ans = OPT_CONVERGED /\
    forall i j, (0 <= i < m)%Z -> (0 <= j <= Z.of_nat d)%Z -> traj_at (an_traj ans) i j = ttraj_of p x1 i j.
  Proof using OK Eb Hr Ha Ht Hc.
    intros Lz Al Z0' Mx' Zv.
    destruct (tthe_facts inf 0 big quick least rtl p b OK Eb) as (ca & na & BF). destruct (trun_ok inf 0 big quick least rtl p b OK Eb) as (R1 & R2 & R3 & R4). pose proof (plan_params_ok tmax) as PO. destruct (params_values tmax) as (V1 & V2 & V3 & V4 & _ & V6 & _ & V8).
    set (s0 := began inf lib F (plan_params tmax) (traj_vec (tb_init b)) (ndec 1 (-1)) tt).
    assert (X0 : o_x s0 = x1) by reflexivity. assert (B0 : o_box s0 = 1 / 10) by exact V8. assert (M0 : o_merit s0 = repeat 20 (f_ncnt F)) by (unfold s0, began; cbn [o_merit with_point with_omerit]; rewrite V6; reflexivity).
    assert (Mn : Forall (fun k => 0 <= k) (o_merit s0)) by (rewrite M0; apply Forall_forall; intros q Hq; apply repeat_spec in Hq; lra).
    pose proof (Z0' (o_merit s0)) as Z0. pose proof (Mx' (o_merit s0)) as Mx.
    destruct (no_gain inf 0 0 lib F (plan_params tmax) (fun u : unit => u) (fun u => (u, 0)) _ R1 PO Hr Ha) with (s := s0) (k := k) (j := k) (it := 1%Z) as (s' & Es & X' & B' & _ & W' & tr & T').
    - intros c0. exact Ht.
    - apply (began_between inf 0 0); [exact R1|exact PO|exact Hr|exact R2].
    - rewrite V1, B0. lra.
    - exists z. split; [congruence|]. rewrite X0, B0. split; [exact Al|]. intros y _ _. rewrite Z0. pose proof (tconvex_nonneg (o_merit s0) x1 y Mn). lra.
    - intros x q Lx Bx [Fx _]. rewrite X0 in Fx |- *. pose proof (tconvex_nonneg (o_merit s0) x1 x Mn). rewrite Mx, V2. lra.
    - assert (Ego : run_sqp inf lib F (plan_params tmax) (fun u : unit => u) (fun u => (u, 0)) (S k) (traj_vec (tb_init b)) (ndec 1 (-1)) tt =
        obind (omerit_loop (plan_params tmax) (run_env inf lib F (fun u : unit => u) (fun u => (u, 0))) (S k) (S k) 0 s0) (fun '(st, s) => Ok (Some (st, with_oworld s (with_rest (o_world s) (w_rest (o_world s))))))).
      { unfold run_sqp, optimize. unfold s0, began. destruct (traj_vec (tb_init b)) as [|a0 l0] eqn:E0; [exfalso; rewrite R4 in R2; cbn [length] in R2; pose proof (tcount_pos inf 0 big quick least p OK); lia|]. reflexivity. }
      cbn [omerit_loop] in Ego. rnum. cbn [omax_merit_coeff_increases plan_params] in Ego. rnum. destruct (Rltb_spec 0 5) as [_|X]; [|lra]. rewrite Es in Ego. cbn [obind] in Ego.
      assert (Fe : ofeasible (plan_params tmax) s' = true).
      { unfold ofeasible. rewrite W', X0. destruct (f_viols F x1) as [|v l]; [reflexivity|]. cbn [vmaxc]. rnum. apply Rltb_true. rewrite V4. apply Forall_cons_iff in Zv as [Zv Zl]. apply fold_max_below; [lra|]. eapply Forall_impl; [|exact Zl]. intros w Hw. cbn beta in Hw. lra. }
      rewrite Fe in Ego. cbn [obind] in Ego. destruct (topt_of inf 0 big quick least lib tmax (fun u : unit => u) (fun u => (u, 0)) rtl p b OK Eb (S k) tt _ _ Ego) as (ans & Eo & Ea).
      exists ans, (with_oworld s' (with_rest (o_world s') (w_rest (o_world s')))). split; [exact Eo|]. split; [exact Ea|]. intros i j Hi Hj.
      destruct (tthe_traj inf 0 big quick least lib tmax (fun u : unit => u) (fun u => (u, 0)) rtl p b OK Eb (S k) tt ans _ Eo) as (_ & _ & T3). rewrite (T3 i j Hi Hj). cbn [o_x with_oworld]. rewrite X', X0. reflexivity.
  Qed.
  Lemma tat_once k : exists ans s, optimize_timed inf lib tmax (fun u : unit => u) (fun u => (u, 0)) (S k) b tt = Ok (Done (ans, s)) /\ an_status ans = OPT_CONVERGED /\
    forall i j, (0 <= i < m)%Z -> (0 <= j <= Z.of_nat d)%Z -> traj_at (an_traj ans) i j = tinitial p i j.
  Proof using OK Eb Hr Ha Ht Hlim Hn Hs Hd1 Hv Hc.
    destruct (tthe_facts inf 0 big quick least rtl p b OK Eb) as (ca & na & BF). destruct (trun_ok inf 0 big quick least rtl p b OK Eb) as (R1 & R2 & R3 & R4).
    assert (L1 : length x1 = tcount p) by (destruct R1 as (_ & Ll & Lu & _); unfold projected; rewrite closest_len; congruence).
    assert (Lim : forall i, (i < length x1)%nat -> nth i (f_lb F) 0 <= nth i x1 0 <= nth i (f_ub F) 0).
    { intros q Hq. rewrite L1 in Hq. destruct (tcell_onto inf 0 big quick least p OK q Hq) as (i & j & Hi & Hj & ->). destruct (tbounds_are inf p b ca na BF i j Hi Hj) as [-> ->]. pose proof (tprojected_at i j Hi Hj) as E. unfold ttraj_of in E. fold (tcell p i j) in E. rewrite E. destruct (Hlim i j Hi Hj). lra. }
    assert (Al : allowed inf 0 (f_lin F) (box_lo (f_lb F) (f_ub F) x1 (1 / 10)) (box_hi (f_lb F) (f_ub F) x1 (1 / 10)) x1).
    { eapply region_allowed; [exact R1|congruence|lra|exact Lim|]. split; [reflexivity|]. split.
      - intros c Hin. cbn [f_lin tas_prob] in Hin. apply in_map_iff in Hin as (e & <- & He). cbn [fst snd]. destruct BF as (_ & _ & _ & _ & B1 & _). destruct (B1 e He) as (_ & _ & i & j & Hf & V). pose proof Hf as ((Hi & Hj) & _). change (dofs (base p)) with d in Hj. rewrite V.
        rewrite tprojected_at by (exact Hi || lia). rewrite tinitial_joint by exact Hj. lra.
      - intros i Hi. split; [apply Lim; exact Hi|]. rewrite Rminus_diag_eq by reflexivity. rewrite Rabs_R0. lra. }
    destruct (tstops x1 k L1 Al (fun mu => proj1 (tconvex_zero mu)) (fun mu => proj2 (tconvex_zero mu)) (proj1 tviols_zero)) as (ans & s & E & St & T). exists ans, s. split; [exact E|]. split; [exact St|].
    intros i j Hi Hj. rewrite (T i j Hi Hj). apply tprojected_at; assumption.
  Qed.
End AtOnce.

(** ** Examples with one joint and two steps: at rest at 0; velocity within 1/10, in time 10 *)
Definition ex_vel : order * jterm R := (Vel, PlanProps.ex_term (TT_CNT + TT_USE_TIME) 0 [1 / 10] 0).
Definition ex_timed : tplan :=
  {| tp_steps := 2; tp_limits := [(-1, 1)]; tp_dt_lower := 1 / 2; tp_dt_upper := 2; tp_init := Stationary; tp_data := {| m_rows := []; m_cols := 0 |}; tp_now := [0]; tp_dt := 1;
     tp_fixed_steps := [0%Z]; tp_fixed_dofs := []; tp_costs := []; tp_cnts := [TJoint ex_vel; TTotal (TT_CNT + TT_USE_TIME) 1 10] |}.
Lemma timed_ok : tplan_ok ex_timed 100 0 3 3 (1 / 3).
Proof.
  unfold tplan_ok. cbn [ex_timed tp_steps tp_limits tp_dt_lower tp_dt_upper tp_now tp_fixed_steps tp_fixed_dofs tp_costs tp_cnts length].
  split; [lia|]. split; [lia|]. split; [lia|]. split; [constructor; [cbn; lra|constructor]|]. split; [lra|]. split; [reflexivity|]. split; [exact I|]. split; [intros t [<-|[]]; lia|]. split; [intros j []|].
  assert (A1 : Rabs 1 = 1) by (apply Rabs_right; lra). assert (A10 : Rabs 10 = 10) by (apply Rabs_right; lra). split.
  { unfold ranges. cbn [ex_timed tp_steps tp_limits tp_dt_lower tp_dt_upper tp_dt length]. split; [lra|]. split; [lra|]. split; [lra|]. split; [lra|]. split.
    - intros i j Hi Hj. assert (j = 0%Z) as -> by lia. unfold initial, at_joint. cbn. rewrite Rabs_R0. lra.
    - split; [constructor; [|constructor]; cbn [fst snd]; rewrite Rabs_left by lra; rewrite A1; lra|]. lra. }
  split; [constructor|]. split.
  - constructor; [|constructor; [|constructor]].
    + right. right. split; [reflexivity|]. split; [lia|]. split; [cbn; lia|]. split; [unfold HatchProps.params_ok, size_ok; cbn; lia|]. split; [reflexivity|]. intros j Hj. assert (j = 0%Z) as -> by (cbn in Hj; lia). unfold coeff, target, upper, lower, at_joint. cbn. rewrite A1.
      split; unfold Rabs; destruct (Rcase_abs _); lra.
    + split; [right; reflexivity|]. rewrite A1, A10. lra.
  - exists (TJoint ex_vel). split; [left; reflexivity|]. reflexivity.
Qed.
(** a position term that is marked as using time *)
Example C139_position : let t := TJoint (Pos, PlanProps.ex_term (TT_CNT + TT_USE_TIME) 0 [1 / 10] 1) in tterm_ok 2 1 100 3 3 (1 / 3) TT_CNT t /\ TimedSpec.uses_time t /\ exists u, parts_of 1 t = [PJoint u] /\ jt_type (snd u) = TT_CNT.
Proof.
  cbn zeta. split; [|split; [reflexivity|eexists; split; reflexivity]]. right. left. split; [reflexivity|]. split; [reflexivity|].
  change (untimed (Pos, PlanProps.ex_term (TT_CNT + TT_USE_TIME) 0 [1 / 10] 1)) with (Pos, PlanProps.ex_term TT_CNT 0 [1 / 10] 1). apply ex_term_ok; cbn; try lia; auto; try (apply abs_lt; lra). right. exists (1 / 10). split; [reflexivity|apply abs_lt; lra].
Qed.
(** a plan, its problem and a run of the optimizer that converges, with a solver that always finds the best *)
Example C139_run : exists b solver ans s, let lib := Osqp 0 false solver in
  tplan_ok ex_timed 100 0 3 3 (1 / 3) /\ tconstruct true ex_timed = Done b /\ honest 100 0 0 lib /\
  optimize_timed 100 lib 1 (fun u : unit => u) (fun u => (u, 0)) 1 b tt = Ok (Done (ans, s)) /\ an_status ans = OPT_CONVERGED /\
  ~ is_exact 1 ex_vel /\ In (TJoint ex_vel) (tp_cnts ex_timed) /\ has (jt_type (snd ex_vel)) TT_USE_TIME = true /\ (first_step 2 ex_vel <= 0 < last_step 2 ex_vel)%Z /\ ~ Rabs 10 < / 100000.
Proof.
  destruct (C133_libraries 100) as (r & _ & _ & (Hr & Ha) & _). destruct (tbuilt_done 100 0 3 3 (1 / 3) ex_timed true timed_ok) as (b & _ & _ & Eb & _).
  assert (N1 : ~ is_exact 1 ex_vel) by apply tol_not_exact. assert (N2 : ~ Rabs 10 < / 100000) by (rewrite Rabs_right; lra).
  destruct (tat_once 100 3 3 (1 / 3) true ex_timed b (Osqp 0 false r) 1 timed_ok Eb Hr Ha ltac:(lra)) with (k := 0%nat) as (ans & s & E & St & _).
  - reflexivity.
  - cbn. intros q [<-|[<-|[]]]; exact I.
  - intros i j _ _. reflexivity.
  - reflexivity.
  - cbn [ex_timed tp_steps tp_limits length]. intros i j Hi Hj. assert (j = 0 \/ j = 1)%Z as [-> | ->] by lia; unfold tlimits, tinitial, limits, initial, at_joint; cbn; lra.
  - cbn. intros q [<-|[<-|[]]]; cbn [part_viol]; (split; [intros X; exfalso; (apply N1; exact X) || (apply N2; exact X)|]); intros _.
    + unfold over_steps. change (Z.to_nat (last_step 2 ex_vel - first_step 2 ex_vel)) with 1%nat. unfold bigsum. cbn [seq]. rewrite rsum_cons, rsum_nil. unfold fast, slow, speed, step_time, tinitial, coeff, target, upper, lower, at_joint. cbn. unfold at_joint. cbn. rewrite !Rmax_right; unfold Rdiv; rewrite ?Rinv_inv; lra.
    + unfold duration, bigsum. change (Z.to_nat (2 - 1)) with 1%nat. cbn [seq]. rewrite rsum_cons, rsum_nil. unfold step_time, tinitial. cbn. rewrite Rmax_right; [reflexivity|]. rewrite Rinv_1. lra.
  - exists b, r, ans, s. cbn zeta. split; [exact timed_ok|]. split; [exact Eb|]. split; [exact Hr|]. split; [exact E|]. split; [exact St|]. split; [exact N1|]. split; [left; reflexivity|]. split; [reflexivity|]. split; [cbn; lia|exact N2].
Qed.

(** one constraint, on the total time; the limits of the inverse time steps are the defaults, and the trajectory starts there *)
Definition ex_limit : tplan :=
  {| tp_steps := 2; tp_limits := [(-1, 1)]; tp_dt_lower := 1; tp_dt_upper := 1; tp_init := Stationary; tp_data := {| m_rows := []; m_cols := 0 |}; tp_now := [0]; tp_dt := 1;
     tp_fixed_steps := []; tp_fixed_dofs := []; tp_costs := []; tp_cnts := [TTotal (TT_CNT + TT_USE_TIME) 1 10] |}.
Lemma limit_ok : tplan_ok ex_limit 100 0 3 3 (1 / 3).
Proof.
  unfold tplan_ok. cbn [ex_limit tp_steps tp_limits tp_dt_lower tp_dt_upper tp_now tp_fixed_steps tp_fixed_dofs tp_costs tp_cnts length].
  split; [lia|]. split; [lia|]. split; [lia|]. split; [constructor; [cbn; lra|constructor]|]. split; [lra|]. split; [reflexivity|]. split; [exact I|]. split; [intros t []|]. split; [intros j []|].
  assert (A1 : Rabs 1 = 1) by (apply Rabs_right; lra). assert (A10 : Rabs 10 = 10) by (apply Rabs_right; lra). split.
  { unfold ranges. cbn [ex_limit tp_steps tp_limits tp_dt_lower tp_dt_upper tp_dt length]. split; [lra|]. split; [lra|]. split; [lra|]. split; [lra|]. split.
    - intros i j Hi Hj. assert (j = 0%Z) as -> by lia. unfold initial, at_joint. cbn. rewrite Rabs_R0. lra.
    - split; [constructor; [|constructor]; cbn [fst snd]; rewrite Rabs_left by lra; rewrite A1; lra|]. lra. }
  split; [constructor|]. split.
  - constructor; [|constructor]. split; [right; reflexivity|]. rewrite A1, A10. lra.
  - exists (TTotal (TT_CNT + TT_USE_TIME) 1 10). split; [left; reflexivity|]. reflexivity.
Qed.
(** With the default limits of the inverse time steps, both 1, and a trajectory that starts there, a run that converges may return time steps outside of the limits. *)
Theorem C139_default_refuted :
  exists p inf big quick least rtl b (lib : library) tmax ans s,
    tplan_ok p inf 0 big quick least /\ tconstruct rtl p = Done b /\ honest inf 0 0 lib /\ (forall i, able inf lib i) /\ tp_dt_lower p = 1 /\ tp_dt_upper p = 1 /\ twithin p inf 0 (tinitial p) /\
    optimize_timed inf lib tmax (fun u : unit => u) (fun u => (u, 0)) 1 b tt = Ok (Done (ans, s)) /\ an_status ans = OPT_CONVERGED /\
    forall i, (0 <= i < tp_steps p)%Z -> step_time (length (tp_limits p)) (traj_at (an_traj ans)) i = 1000 / 999.
Proof.
  destruct (C133_libraries 100) as (r & _ & _ & (Hr & Ha) & _). destruct (tbuilt_done 100 0 3 3 (1 / 3) ex_limit true limit_ok) as (b & ca & na & Eb & BF).
  assert (N2 : ~ Rabs 10 < / 100000) by (rewrite Rabs_right; lra). set (F := tas_prob 100 b). set (x1 := projected F (traj_vec (tb_init b))).
  assert (Ev : forall i j, (0 <= i < 2)%Z -> (0 <= j <= 1)%Z -> nth (tcell ex_limit i j) x1 0 = if (j =? 1)%Z then 999 / 1000 else 0).
  { intros i j Hi Hj. pose proof (start_point 100 ex_limit b ca na BF i j Hi Hj) as E. unfold ttraj_of in E. fold (tcell ex_limit i j) in E. unfold x1, projected, F. rewrite E. assert (j = 0 \/ j = 1)%Z as [-> | ->] by lia; unfold tlimits, tinitial, limits, initial, at_joint; cbn; unfold at_joint; cbn; [apply Rmin_right; lra|rewrite Rmin_left; lra]. }
  assert (Tv : get_vec x1 (times 2 1 (tcell ex_limit)) = [999 / 1000]) by (rewrite times_vec; change (Z.to_nat (2 - 1)) with 1%nat; cbn [seq map]; change (Z.of_nat 0 + 1)%Z with 1%Z; change (Z.of_nat 1) with 1%Z; rewrite (Ev 1%Z 1%Z) by lia; reflexivity).
  destruct (trun_ok 100 0 3 3 (1 / 3) true ex_limit b limit_ok Eb) as (R1 & R2 & R3 & R4). change (tas_prob 100 b) with F in R1, R2, R3, R4.
  assert (L1 : length x1 = tcount ex_limit) by (destruct R1 as (_ & Ll & Lu & _); unfold x1, projected; rewrite closest_len; congruence).
  (* the only constraint *)
  assert (Ob : exists e, (e = true <-> Rabs 10 < / 100000) /\ tget_cnts b = [OErr {| er_side := SideCnt; er_eq := e; er_vars := times 2 1 (tcell ex_limit); er_coeffs := [1]; er_fun := fun x => Ok (time_cost 10 x); er_jac := fun x => Ok (time_cost_jac x) |}]).
  { pose proof (cnt_sides 100 0 3 3 (1 / 3) ex_limit b ca na limit_ok BF) as H. change (parts (length (tp_limits ex_limit)) (tp_cnts ex_limit)) with [PTime 1 10] in H. inversion H as [|q o ls os [_ Po] H' E1 E2]. inversion H'. subst. destruct Po as (e & He & ->). exists e. split; [exact He|]. rewrite (tcnts_are 100 0 3 3 (1 / 3) ex_limit b ca _ limit_ok BF).
    destruct e; cbn; [exfalso; apply N2, He; reflexivity|]. reflexivity. }
  destruct Ob as (e & He & Ec). assert (e = false) as -> by (destruct e; [exfalso; apply N2, He; reflexivity|reflexivity]). clear He.
  assert (Tc : tget_costs b = []). { rewrite (tcosts_are 100 0 3 3 (1 / 3) ex_limit b ca na limit_ok BF). pose proof (cost_sides 100 0 3 3 (1 / 3) ex_limit b ca na limit_ok BF) as H. cbn in H. inversion H. reflexivity. }
  set (z := [0; 1; 0; 1]).
  assert (V0 : cnt_violation INEQ (err_cnt_value [1] (time_cost 10 [999 / 1000])) = 0).
  { unfold cnt_violation, cnt_violations, err_cnt_value, time_cost. cbn [map combine fst snd]. rewrite !vsum_R. cbn [Rsum fold_right]. rewrite pospart_Rmax. rnum. rewrite Rmax_right; lra. }
  destruct (tstops 100 3 3 (1 / 3) true ex_limit b (Osqp 0 false r) 1 limit_ok Eb Hr Ha ltac:(lra) eq_refl z 0) as (ans & s & E & St & T).
  - reflexivity.
  - change (tas_prob 100 b) with F. fold x1. destruct (boxes_len 100 0 F _ R1 x1 (1 / 10)) as [B1 B2]; [congruence|]. split.
    + intros c Hin. exfalso. cbn [f_lin tas_prob F] in Hin. apply in_map_iff in Hin as (a & _ & Hin). destruct BF as (_ & _ & _ & _ & B5 & _). destruct (B5 a Hin) as (_ & _ & i & j & (_ & [[]|[]]) & _).
    + intros q Hq. rewrite B1 in Hq. rewrite R4 in Hq. destruct (tcell_onto 100 0 3 3 (1 / 3) ex_limit limit_ok q Hq) as (i & j & Hi & Hj & ->). change (tp_steps ex_limit) with 2%Z in Hi. cbn [ex_limit tp_limits length Z.of_nat] in Hj. change (Z.pos (Pos.of_succ_nat 0)) with 1%Z in Hj.
      destruct (tbounds_are 100 ex_limit b ca na BF i j Hi Hj) as [Bl Bu]. change (tas_prob 100 b) with F in Bl, Bu. destruct R1 as (_ & Ll & Lu & _).
      unfold box_lo, box_hi, trust_boxes. rewrite !map_map. assert (Hl : (tcell ex_limit i j < length (combine (combine (f_lb F) (f_ub F)) x1))%nat) by (rewrite !combine_length; lia).
      rewrite !(BackendProps.nth_map_in _ _ _ _ ((0, 0), 0)) by exact Hl. rewrite combine_nth by (rewrite combine_length; lia). rewrite combine_nth by lia. cbn [fst snd]. rewrite Bl, Bu, (Ev i j Hi Hj).
      assert (Zv : nth (tcell ex_limit i j) z 0 = if (j =? 1)%Z then 1 else 0) by (assert (i = 0 \/ i = 1)%Z as [-> | ->] by lia; assert (j = 0 \/ j = 1)%Z as [-> | ->] by lia; reflexivity).
      rewrite Zv. unfold trust_box1. cbn [fst snd]. rewrite nmax_R, nmin_R. unfold near. assert (j = 0 \/ j = 1)%Z as [-> | ->] by lia; unfold tlimits, limits; cbn; unfold nclamp; rnum; repeat rcase; unfold Rmax, Rmin; repeat destruct (Rle_dec _ _); lra.
  - intros mu. change (tas_prob 100 b) with F. fold x1. unfold convex_merit, convexified. cbn [p_costs p_cnts p_mu]. cbn [f_ccosts f_ccnts tas_prob F]. rewrite Tc, Ec. cbn [map tcnt_convex er_vars er_jac er_fun er_coeffs er_eq obind value_or]. rewrite rsum_nil, Rplus_0_l.
    destruct mu as [|k mu]; cbn [combine]; [apply rsum_nil|]. rewrite rsum_cons. replace (combine mu (@nil (ccnts R))) with (@nil (R * ccnts R)) by (destruct mu; reflexivity). rewrite rsum_nil. cbn [fst snd].
    rewrite Tv. change (times 2 1 (tcell ex_limit)) with [tcell ex_limit 1 1]. change (time_cost_jac [999 / 1000]) with [[-1 * (1 / (999 / 1000 * (999 / 1000)))]]. change (time_cost 10 [999 / 1000]) with [vsum [1 / (999 / 1000)] - 10]. unfold err_cnt_convex, err_cnt_affs, err_weights. cbn [map combine length fst snd cc_eqs cc_ineqs flat_map app]. rnum.
    destruct (Reqb_spec 1 0) as [X|_]; [lra|]. cbn [flat_map fst snd app]. rewrite rsum_cons, !rsum_nil, aff_scale_value. replace [999 / 1000] with (get_vec x1 [tcell ex_limit 1 1]) by exact Tv.
    rewrite val_grad_value, small_terms_zero by (constructor; [right; rewrite Rabs_left; lra|constructor]). cbn [combine]. rewrite rsum_cons, rsum_nil. unfold lin_term. cbn [fst snd]. rewrite (Ev 1%Z 1%Z) by lia. change (nth (tcell ex_limit 1 1) z 0) with 1. cbn [Z.eqb Pos.eqb]. rewrite vsum_R. cbn [Rsum fold_right]. rewrite Rmax_right by lra. ring.
  - intros mu. change (tas_prob 100 b) with F. fold x1. unfold merit. cbn [f_costs f_viols tas_prob F]. rewrite Tc, Ec. cbn [map tcnt_viol er_fun er_vars er_eq er_coeffs obind value_or]. rewrite Tv, V0. destruct mu as [|k mu]; cbn [combine]; rewrite ?rsum_cons, !rsum_nil; [lra|]. replace (combine mu (@nil R)) with (@nil (R * R)) by (destruct mu; reflexivity). rewrite ?rsum_nil. cbn [fst snd]. lra.
  - change (tas_prob 100 b) with F. fold x1. cbn [f_viols tas_prob F]. rewrite Ec. cbn [map tcnt_viol er_fun er_vars er_eq er_coeffs obind value_or]. rewrite Tv. constructor; [exact V0|constructor].
  - exists ex_limit, 100, 3, 3, (1 / 3), true, b, (Osqp 0 false r), 1, ans, s. split; [exact limit_ok|]. split; [exact Eb|]. split; [exact Hr|]. split; [exact Ha|]. split; [reflexivity|]. split; [reflexivity|]. split.
    { split; [|intros i j (_ & [[]|[]])]. cbn [ex_limit tp_steps tp_limits length]. intros i j Hi Hj. assert (j = 0 \/ j = 1)%Z as [-> | ->] by (cbn in Hj; lia); unfold tlimits, tinitial, limits, initial, at_joint, near; cbn; unfold at_joint; cbn; lra. }
    split; [exact E|]. split; [exact St|]. intros i Hi. unfold step_time. rewrite (T i (Z.of_nat (length (tp_limits ex_limit))) Hi ltac:(cbn; lia)). change (tas_prob 100 b) with F. fold x1. change (/ nth (tcell ex_limit i 1) x1 0 = 1000 / 999). rewrite (Ev i 1%Z Hi) by lia. cbn [Z.eqb Pos.eqb]. lra.
Qed.
Print Assumptions C139_default_refuted.
