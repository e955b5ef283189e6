(** * ConstructProblem and OptimizeProblem for joint space problems (C136) *)
From Coq Require Import List ZArith Bool Arith Reals Lra Lia Permutation.
From Verif Require Import Num NumFacts RSums Common BackendModel SolveModel SolveSpec SolveProps ScoExprModel ScoExprProofs ModelingModel ModelingSpec ModelingProofs ScoOptModel ScoOptProofs ScoOptProps MeritModel MeritSpec MeritProofs MeritProps RunModel RunSpec RunProofs RunProps ArrayModel ArrayProps TrajCostModel TrajCostProps TrajoptModel LayoutProps HatchProps ConstructProps PlanModel PlanSpec PlanProofs.
Import ListNotations.
Local Open Scope R_scope.

(** A plan that makes sense gives a problem with a variable for each joint and step, within the joint's limits, linear constraints that
    hold exactly at the trajectories that are at the initial values where fixed, the costs asked for in their order, and the constraints
    asked for, equality constraints first; none of their values fails. *)
Theorem C136_built :
  forall inf p rtl, plan_ok p inf -> exists b, construct rtl p = Done b /\
    Z.of_nat (length (b_vars b)) = (pl_steps p * Z.of_nat (dofs p))%Z /\
    (forall i j, (0 <= i < pl_steps p)%Z -> (0 <= j < Z.of_nat (dofs p))%Z -> nth (Z.to_nat (i * Z.of_nat (dofs p) + j)) (map (bounds_of inf) (b_vars b)) (0, 0) = limits p j) /\
    (length (traj_vec (b_init b)) = length (b_vars b) /\ forall i j, (0 <= i < pl_steps p)%Z -> (0 <= j < Z.of_nat (dofs p))%Z -> traj_of p (traj_vec (b_init b)) i j = initial p i j) /\
    (forall x, (forall e, In e (b_fixed b) -> aff_value e x = 0) <-> forall i j, fixed p i j -> traj_of p x i j = initial p i j) /\
    (forall x, Forall2 (fun t a => exists v, cost_value a x = Ok v /\ term_cost (pl_steps p) (dofs p) t (traj_of p x) v) (pl_costs p) (get_costs b)) /\
    exists eqs ineqs, Permutation (eqs ++ ineqs) (pl_cnts p) /\ Forall (is_exact (dofs p)) eqs /\ Forall (fun t => ~ is_exact (dofs p) t) ineqs /\
      forall x, Forall2 (fun t a => exists v, cnt_viol a x = Ok v /\ term_viol (pl_steps p) (dofs p) t (traj_of p x) v) (eqs ++ ineqs) (get_cnts b).
Proof.
  intros inf p rtl OK. destruct (built_done inf p rtl OK) as (b & ca & na & E & BF). exists b. split; [exact E|]. pose proof BF as (_ & Lv & Bv & St & B1 & B2 & _). pose proof OK as (_ & Hm & Hd & _).
  split; [rewrite Lv; unfold count; rewrite Nat2Z.inj_mul, Z2Nat.id by lia; reflexivity|]. split; [exact Bv|]. split; [destruct (traj_vec_facts p (b_init b) St) as [L1 L2]; split; [rewrite Lv; exact L1|exact L2]|]. split.
  { intros x. split.
    - intros H i j Hf. destruct (B2 i j Hf) as (e & He & V). specialize (H e He). rewrite V in H. lra.
    - intros H e He. destruct (B1 e He) as (_ & _ & i & j & Hf & V). rewrite V, (H i j Hf). lra. }
  split.
  { intros x. rewrite (costs_are inf p b ca na BF). eapply forall2_weaken; [|exact (costs_facts inf p b ca na OK BF x)]. intros t a _ (v & H1 & H2 & _). exists v. auto. }
  destruct (cnts_split inf p b ca na OK BF) as (eqs & ineqs & P1 & P2 & P3 & P4). exists eqs, ineqs. split; [exact P1|]. split; [exact P2|]. split; [exact P3|]. intros x. rewrite (cnts_are inf p b ca na BF).
  eapply forall2_weaken; [|exact (P4 x)]. intros t a _ (v & H1 & H2 & _). exists v. auto.
Qed.
Print Assumptions C136_built.

(** ** Runs *)
Lemma params_values tmax : omin_trust_box_size (plan_params tmax) = 1 / 10000 /\ omin_approx_improve (plan_params tmax) = 1 / 10000 /\ omin_approx_improve_frac (plan_params tmax) = 1 / 1000 /\
  ocnt_tolerance (plan_params tmax) = 1 / 10000 /\ otrust_shrink_ratio (plan_params tmax) = 1 / 10 /\ oinitial_merit_error_coeff (plan_params tmax) = 20 /\ omerit_coeff_increase_ratio (plan_params tmax) = 10 /\ ndec (T := R) 1 (-1) = 1 / 10.
Proof.
  unfold plan_params. cbn [omin_trust_box_size omin_approx_improve omin_approx_improve_frac ocnt_tolerance otrust_shrink_ratio oinitial_merit_error_coeff omerit_coeff_increase_ratio]. rnum. unfold Rdec. cbn.
  change (Pos.to_nat 4) with 4%nat. change (Pos.to_nat 3) with 3%nat. change (Pos.to_nat 1) with 1%nat. cbn [pow]. repeat apply conj; lra.
Qed.
Lemma plan_params_ok tmax : RunSpec.params_ok (plan_params tmax).
Proof. destruct (params_values tmax) as (_ & _ & _ & _ & _ & V1 & V2 & _). split; [rewrite V1|rewrite V2]; lra. Qed.

(** with a clock that stays below the limit something is evaluated *)
Lemma app_ne {A} (l : list A) r : r <> [] -> l ++ r <> [].
Proof. destruct l; [auto|discriminate]. Qed.
Lemma evaluated {W} (P : oparams R) (E : oenv R W) fuel x s0 st s : (forall w, snd (o_clock E w) <= omax_time P) -> 0 < omax_merit_coeff_increases P ->
  optimize P E fuel (oinitialize x s0) = Ok (Some (st, s)) -> o_trace s <> [].
Proof.
  intros Hc Hp. unfold optimize. cbn [oinitialize o_x]. destruct x as [|a x]; [discriminate|]. match goal with |- context [omerit_loop P E fuel fuel 0 ?q] => generalize q end. intros s1. destruct fuel as [|k]; cbn [omerit_loop]; rnum; (destruct (Rltb_spec 0 (omax_merit_coeff_increases P)) as [_|X]; [|lra]); [discriminate|].
  destruct (osqp_loop P E (S k) (S k) 1 s1) as [j| |] eqn:Ej; cbn [obind]; try discriminate.
  assert (Nj : o_trace (jstate j) <> []).
  { cbn [osqp_loop] in Ej. specialize (Hc (o_world s1)). destruct (o_clock E (o_world s1)) as [w el]. cbn [snd] in Hc. rnum. destruct (Rltb_spec (omax_time P) el) as [X|_]; [lra|].
    destruct (oprepare E (with_oworld s1 w)) as [s2| |] eqn:Ep; cbn [obind] in Ej; try discriminate. apply oprepare_spec in Ep as ([(_ & _ & _ & _ & _ & _ & T)|(_ & _ & _ & T & _)] & _).
    all: destruct (otr_loop P E (S k) 0 s2) as [y| |] eqn:Ey; cbn [obind] in Ej; try discriminate; apply otr_failures in Ey as (ev & Ty & _).
    all: assert (Ny : o_trace (xstate y) <> []) by (rewrite Ty, T; apply app_ne; discriminate); clear Ty T; destruct y as [?|s3|?|?]; cbn [xstate] in Ny; try discriminate.
    all: try (injection Ej as <-; exact Ny).
    all: destruct (Rltb (o_box s3) _); [injection Ej as <-; exact Ny|]; destruct (1 >=? _)%Z; [injection Ej as <-; exact Ny|]; apply osqp_count in Ej as (ev2 & Tj & _); rewrite Tj; apply app_ne, Ny. }
  destruct j as [s2|st2 s2]; cbn [jstate] in Nj; cbn [obind].
  - destruct (ofeasible P s2); [intros [= <- <-]; exact Nj|]. unfold oadjust. destruct (oinflate_individually P && _); cbn [obind]; [discriminate|].
    match goal with |- context [omerit_loop P E _ k ?i ?q] => destruct (omerit_loop P E (S k) k i q) as [[st3 s3]| |] eqn:Em; cbn [obind]; try discriminate end.
    apply omerit_count in Em as (ev & Tm & _). intros [= <- <-]. cbn [o_trace with_oworld]. rewrite Tm. apply app_ne. discriminate.
  - intros [= <- <-]. exact Nj.
Qed.

Lemma trajectory p vars (x : list R) rows : cells vars (pl_steps p) (Z.of_nat (dofs p)) (cell_of p) -> (1 <= dofs p)%nat -> get_traj x vars = Some rows ->
  Z.of_nat (length rows) = pl_steps p /\ Forall (fun r => length r = dofs p) rows /\
  forall i j, (0 <= i < pl_steps p)%Z -> (0 <= j < Z.of_nat (dofs p))%Z -> traj_at rows i j = traj_of p x i j.
Proof.
  intros Hc Hd E. destruct (C58_get_traj vars _ _ _ x Hc) as (rows' & E' & L & H). rewrite E in E'. injection E' as <-. split; [exact L|]. split.
  - apply Forall_forall. intros r Hr. destruct (In_nth_error _ _ Hr) as (k & Ek). assert (Hk : (k < length rows)%nat) by (apply nth_error_Some; congruence).
    destruct (H (Z.of_nat k) 0%Z ltac:(lia) ltac:(lia)) as (row & Er & Lr & _). rewrite Nat2Z.id, Ek in Er. injection Er as <-. lia.
  - intros i j Hi Hj. destruct (H i j Hi Hj) as (row & Er & _ & Ej). unfold traj_at. rewrite (nth_error_nth _ _ [] Er), (nth_error_nth _ _ 0 Ej). reflexivity.
Qed.

Section Runs.
  Context {C : Type} (inf eps delta : R) (lib : library) (tmax : R) (callback : C -> C) (clock : C -> C * R) (rtl : bool) (p : plan) (b : built).
  Hypothesis OK : plan_ok p inf.
  Hypothesis Eb : construct rtl p = Done b.
  Hypothesis HR : honest inf eps delta lib.
  Local Notation F := (as_prob inf b).
  Local Notation P := (plan_params tmax).
  Local Notation x0 := (traj_vec (b_init b)).
  Local Notation go fuel c := (run_sqp inf lib F P callback clock fuel x0 (ndec 1 (-1)) c).
  Local Notation opt fuel c := (optimize_problem inf lib tmax callback clock fuel b c).

  Lemma the_facts : exists ca na, built_facts inf p b ca na.
  Proof using OK Eb. destruct (built_done inf p rtl OK) as (b' & ca & na & E & BF). rewrite Eb in E. injection E as <-. exists ca, na. exact BF. Qed.
  Lemma run_ok e : prob_ok inf e F x0 /\ length x0 = length (f_vars F) /\ f_vars F <> [] /\ length (f_vars F) = count p.
  Proof using OK Eb.
    destruct the_facts as (ca & na & BF). pose proof (vars_count inf p b ca na BF) as Lv. split; [apply (as_prob_ok inf p b ca na OK BF)|]. split; [rewrite Lv; destruct BF as (_ & _ & _ & St & _); apply (traj_vec_facts p _ St)|]. split; [|exact Lv].
    intros N. rewrite N in Lv. pose proof (count_pos inf p OK). cbn in Lv. lia.
  Qed.
  Lemma opt_inv fuel c ans s : opt fuel c = Ok (Done (ans, s)) ->
    go fuel c = Ok (Some (an_status ans, s)) /\ get_traj (o_x s) (b_cells b) = Some (an_traj ans) /\ an_costs ans = o_cost_vals s /\ an_viols ans = o_cnt_viols s.
  Proof using.
    unfold optimize_problem. destruct (negb _); [discriminate|]. destruct (go fuel c) as [[[st s']|]| |]; cbn [obind]; try discriminate. destruct (get_traj (o_x s') (b_cells b)) as [rows|] eqn:Eg; [|discriminate].
    intros [= <- <-]. cbn. auto.
  Qed.
  Lemma opt_of fuel c st s : go fuel c = Ok (Some (st, s)) -> exists ans, opt fuel c = Ok (Done (ans, s)) /\ an_status ans = st.
  Proof using OK Eb.
    intros E. destruct (run_ok 0) as (_ & L & _ & Lc). destruct the_facts as (ca & na & BF). unfold optimize_problem. rewrite L. cbn [f_vars as_prob]. rewrite map_length, Nat.eqb_refl. cbn [negb]. rewrite E. cbn [obind].
    destruct (C58_get_traj (b_cells b) _ _ _ (o_x s) (proj1 BF)) as (rows & -> & _). eexists. split; reflexivity.
  Qed.
  Lemma the_traj fuel c ans s : opt fuel c = Ok (Done (ans, s)) -> Z.of_nat (length (an_traj ans)) = pl_steps p /\ Forall (fun r => length r = dofs p) (an_traj ans) /\
    forall i j, (0 <= i < pl_steps p)%Z -> (0 <= j < Z.of_nat (dofs p))%Z -> traj_at (an_traj ans) i j = traj_of p (o_x s) i j.
  Proof using OK Eb. intros E. apply opt_inv in E as (_ & E & _). destruct the_facts as (ca & na & BF). apply (trajectory p (b_cells b) (o_x s) _ (proj1 BF) (dofs_pos inf p OK) E). Qed.

  Lemma cell_in_range t ty i j : term_ok (pl_steps p) (dofs p) t inf ty -> in_term (pl_steps p) (dofs p) t i j -> (0 <= i)%Z /\ (i + steps (fst t) < pl_steps p)%Z /\ (0 <= j < Z.of_nat (dofs p))%Z.
  Proof using OK. intros Ht Hij. destruct (term_sizes inf (pl_steps p) (dofs p) t ty Ht) as (_ & _ & _ & _ & Fi). unfold fits in Fi. unfold in_term in Hij. lia. Qed.
  Lemma dev_same t ty X Y : term_ok (pl_steps p) (dofs p) t inf ty -> (forall i j, (0 <= i < pl_steps p)%Z -> (0 <= j < Z.of_nat (dofs p))%Z -> X i j = Y i j) ->
    forall i j, in_term (pl_steps p) (dofs p) t i j -> dev (dofs p) t X i j = dev (dofs p) t Y i j.
  Proof using OK.
    intros Ht H i j Hij. destruct (cell_in_range t ty i j Ht Hij) as (A & B & D). unfold dev, difference. destruct (fst t); cbn [steps] in B; rewrite ?H by lia; reflexivity.
  Qed.
  Lemma cost_same t X Y v : In t (pl_costs p) -> (forall i j, (0 <= i < pl_steps p)%Z -> (0 <= j < Z.of_nat (dofs p))%Z -> X i j = Y i j) -> term_cost (pl_steps p) (dofs p) t X v -> term_cost (pl_steps p) (dofs p) t Y v.
  Proof using OK.
    intros Ht H [C1 C2]. pose proof (dev_same t TT_COST X Y (cost_ok inf p OK t Ht) H) as D. split; intros E; [rewrite (C1 E)|rewrite (C2 E)]; apply over_ext; intros i j Hij; [|unfold excess]; rewrite (D i j Hij); reflexivity.
  Qed.
  Lemma viol_same t X Y v : In t (pl_cnts p) -> (forall i j, (0 <= i < pl_steps p)%Z -> (0 <= j < Z.of_nat (dofs p))%Z -> X i j = Y i j) -> term_viol (pl_steps p) (dofs p) t X v -> term_viol (pl_steps p) (dofs p) t Y v.
  Proof using OK.
    intros Ht H [C1 C2]. pose proof (dev_same t TT_CNT X Y (cnt_ok inf p OK t Ht) H) as D. split; intros E; [rewrite (C1 E)|rewrite (C2 E)]; apply over_ext; intros i j Hij; [|unfold excess]; rewrite (D i j Hij); reflexivity.
  Qed.
End Runs.

(** OptimizeProblem meets no exception or failed assertion, and ends. *)
Theorem C136_ends :
  forall (C : Type) inf eps delta (lib : library) tmax (callback : C -> C) clock rtl p b c,
    plan_ok p inf -> construct rtl p = Done b -> honest inf eps delta lib ->
    (forall fuel, optimize_problem inf lib tmax callback clock fuel b c = NoFuel \/ exists r, optimize_problem inf lib tmax callback clock fuel b c = Ok (Done r)) /\
    exists K r, forall fuel, (K <= fuel)%nat -> optimize_problem inf lib tmax callback clock fuel b c = Ok (Done r).
Proof.
  intros C inf eps delta lib tmax callback clock rtl p b c OK Eb HR. destruct (run_ok inf rtl p b OK Eb eps) as (R1 & R2 & R3 & _). split.
  - intros fuel. destruct (C133_no_abort C inf eps delta lib (as_prob inf b) (plan_params tmax) callback clock fuel (traj_vec (b_init b)) (ndec 1 (-1)) c R1 (plan_params_ok tmax) HR R2 R3) as [E|(st & s & m & E & _)].
    + left. unfold optimize_problem. cbn [f_vars as_prob] in R2. rewrite map_length in R2. rewrite R2, Nat.eqb_refl. cbn [negb]. rewrite E. reflexivity.
    + right. destruct (opt_of inf lib tmax callback clock rtl p b OK Eb fuel c st s E) as (ans & -> & _). eexists. reflexivity.
  - destruct (params_values tmax) as (V1 & _ & _ & _ & V2 & _).
    destruct (C133_ends C inf eps delta lib (as_prob inf b) (plan_params tmax) callback clock (traj_vec (b_init b)) (ndec 1 (-1)) c R1 (plan_params_ok tmax) HR R2 R3) as (K & st & s & H); [rewrite V2; lra|rewrite V1; lra|].
    destruct (opt_of inf lib tmax callback clock rtl p b OK Eb K c st s (H K (le_n K))) as (ans & E & _). exists K, (ans, s). intros fuel Hf.
    destruct (opt_of inf lib tmax callback clock rtl p b OK Eb fuel c st s (H fuel Hf)) as (ans' & E' & _). rewrite E'. f_equal. f_equal. f_equal.
    destruct (opt_inv inf lib tmax callback clock b K c ans s E) as (A1 & A2 & A3 & A4). destruct (opt_inv inf lib tmax callback clock b fuel c ans' s E') as (B1 & B2 & B3 & B4).
    rewrite (H K (le_n K)) in A1. rewrite (H fuel Hf) in B1. destruct ans as [a1 a2 a3 a4], ans' as [c1 c2 c3 c4]. cbn in *. congruence.
Qed.
Print Assumptions C136_ends.

(** The trajectory returned has a value for each step and joint; it is within limits and fixed values up to the solver's tolerance, or
    it is the initial one moved down where within 1/1000 of an upper limit or above. *)
Theorem C136_limits :
  forall (C : Type) inf eps delta (lib : library) tmax (callback : C -> C) clock rtl p b c fuel ans s,
    plan_ok p inf -> construct rtl p = Done b -> honest inf eps delta lib ->
    optimize_problem inf lib tmax callback clock fuel b c = Ok (Done (ans, s)) ->
    Z.of_nat (length (an_traj ans)) = pl_steps p /\ Forall (fun r => length r = dofs p) (an_traj ans) /\
    (within p inf eps (traj_at (an_traj ans)) \/
     forall i j, (0 <= i < pl_steps p)%Z -> (0 <= j < Z.of_nat (dofs p))%Z -> traj_at (an_traj ans) i j = Rmin (snd (limits p j) - 1 / 1000) (initial p i j)).
Proof.
  intros C inf eps delta lib tmax callback clock rtl p b c fuel ans s OK Eb HR E. destruct (run_ok inf rtl p b OK Eb eps) as (R1 & R2 & R3 & R4). destruct (the_facts inf rtl p b OK Eb) as (ca & na & BF).
  destruct (the_traj inf lib tmax callback clock rtl p b OK Eb fuel c ans s E) as (T1 & T2 & T3). split; [exact T1|]. split; [exact T2|]. apply opt_inv in E as (E & _).
  destruct (C133_limits C inf eps delta lib (as_prob inf b) (plan_params tmax) callback clock fuel (traj_vec (b_init b)) (ndec 1 (-1)) c _ s R1 (plan_params_ok tmax) HR R2 R3 E) as (Lx & [Ex|(K1 & K2)]).
  - right. intros i j Hi Hj. rewrite (T3 i j Hi Hj), Ex. pose proof BF as (_ & Lv & _ & St & _). destruct (traj_vec_facts p (b_init b) St) as [L0 I0]. rewrite <- (I0 i j Hi Hj). destruct (bounds_are inf p b ca na BF i j Hi Hj) as [_ Bu]. rewrite <- Bu.
    unfold traj_of. fold (cell_of p i j). pose proof (cell_lt p i j Hi Hj) as Hc. pose proof (vars_count inf p b ca na BF) as Lf. destruct R1 as (_ & Ll & Lu & _). unfold closest_feasible.
    rewrite (nth_indep _ 0 (closest_feasible1 0 0 0 (1 / 1000))) by (rewrite map_length, !combine_length; lia). rewrite (map_nth (fun t => closest_feasible1 (fst (fst t)) (snd (fst t)) (snd t) (1 / 1000)) _ ((0, 0), 0)).
    rewrite combine_nth by (rewrite combine_length; lia). rewrite combine_nth by lia. cbn [fst snd]. unfold closest_feasible1. cbn zeta. rewrite nfmin_R. rnum. reflexivity.
  - left. split.
    + intros i j Hi Hj. rewrite (T3 i j Hi Hj). destruct (bounds_are inf p b ca na BF i j Hi Hj) as [<- <-]. unfold traj_of. fold (cell_of p i j). apply K2. pose proof (cell_lt p i j Hi Hj). destruct R1 as (_ & Ll & _). lia.
    + intros i j Hf. pose proof Hf as ((Hi & Hj) & _). rewrite (T3 i j Hi Hj). pose proof BF as (_ & _ & _ & _ & _ & B2 & _). destruct (B2 i j Hf) as (e & He & V). rewrite <- V.
      assert (Hin : In (false, e) (f_lin (as_prob inf b))) by (apply (in_map (pair false)), He). specialize (K1 _ Hin). unfold RoundSolveSpec.cnt_near in K1. cbn [fst snd] in K1. apply Rabs_le. lra.
Qed.
Print Assumptions C136_limits.

(** The costs and violations reported are those of the trajectory returned.  Unless the clock passes the limit before anything is
    evaluated: then both lists are empty. *)
Theorem C136_reported :
  forall (C : Type) inf eps delta (lib : library) tmax (callback : C -> C) clock rtl p b c fuel ans s,
    plan_ok p inf -> construct rtl p = Done b -> honest inf eps delta lib -> (forall c, snd (clock c) <= tmax) ->
    optimize_problem inf lib tmax callback clock fuel b c = Ok (Done (ans, s)) ->
    Forall2 (fun t v => term_cost (pl_steps p) (dofs p) t (traj_at (an_traj ans)) v) (pl_costs p) (an_costs ans) /\
    (exists eqs ineqs, Permutation (eqs ++ ineqs) (pl_cnts p) /\ Forall (is_exact (dofs p)) eqs /\ Forall (fun t => ~ is_exact (dofs p) t) ineqs /\
       Forall2 (fun t v => term_viol (pl_steps p) (dofs p) t (traj_at (an_traj ans)) v) (eqs ++ ineqs) (an_viols ans)) /\
    (an_status ans = OPT_CONVERGED -> Forall (fun v => v < 1 / 10000) (an_viols ans)).
Proof.
  intros C inf eps delta lib tmax callback clock rtl p b c fuel ans s OK Eb HR Hclk E. destruct (the_facts inf rtl p b OK Eb) as (ca & na & BF).
  destruct (the_traj inf lib tmax callback clock rtl p b OK Eb fuel c ans s E) as (_ & _ & T3). apply opt_inv in E as (E & _ & -> & ->).
  assert (Hc : forall w, snd (o_clock (run_env inf lib (as_prob inf b) callback clock) w) <= omax_time (plan_params tmax)).
  { intros w. cbn [o_clock run_env]. specialize (Hclk (w_rest w)). destruct (clock (w_rest w)) as [c' el]. exact Hclk. }
  pose proof (evaluated (plan_params tmax) (run_env inf lib (as_prob inf b) callback clock) fuel (traj_vec (b_init b)) (run_start inf lib (as_prob inf b) (traj_vec (b_init b)) (ndec 1 (-1)) c) (an_status ans) s Hc ltac:(cbn; lra) E) as Ne.
  destruct (C10_values_of_x_partial R _ _ (plan_params tmax) (run_env inf lib (as_prob inf b) callback clock) fuel (traj_vec (b_init b)) (run_start inf lib (as_prob inf b) (traj_vec (b_init b)) (ndec 1 (-1)) c) (an_status ans) s eq_refl E) as [(_ & _ & _ & N)|(V1 & V2 & _)]; [contradiction|].
  cbn [o_costs o_viols run_env] in V1, V2. rewrite V1, V2. split; [|split].
  - eapply forall2_weaken; [|exact (values_cost inf p b ca na OK BF (o_x s))]. intros t v Ht H. apply (cost_same inf p OK t (traj_of p (o_x s))); [exact Ht| |exact H]. intros i j Hi Hj. symmetry. apply T3; assumption.
  - destruct (cnts_split inf p b ca na OK BF) as (eqs & ineqs & P1 & P2 & P3 & P4). exists eqs, ineqs. split; [exact P1|]. split; [exact P2|]. split; [exact P3|]. cbn [f_viols as_prob]. rewrite (cnts_are inf p b ca na BF). apply forall2_map_r.
    eapply forall2_weaken; [|exact (P4 (o_x s))]. intros t a Ht (v & -> & H & _). cbn [value_or]. apply (viol_same inf p OK t (traj_of p (o_x s))); [apply (Permutation_in _ P1), Ht| |exact H]. intros i j Hi Hj. symmetry. apply T3; assumption.
  - intros Es. rewrite Es in E. destruct (C09_converged_feasible_partial R _ _ (plan_params tmax) (run_env inf lib (as_prob inf b) callback clock) _ fuel (traj_vec (b_init b)) (run_start inf lib (as_prob inf b) (traj_vec (b_init b)) (ndec 1 (-1)) c) s eq_refl E) as [(_ & N)|(_ & Fv)]; [contradiction|].
    cbn [o_viols run_env] in Fv. destruct (params_values tmax) as (_ & _ & _ & V4 & _). rewrite V4 in Fv. eapply Forall_impl; [|exact Fv]. intros v. cbn beta. intros H. apply Rltb_true. exact H.
Qed.
Print Assumptions C136_reported.

(** If it says OPT_CONVERGED, every constraint is met up to the tolerance at each step and joint: the square of the deviation where the
    tolerances count as zero, the excess over the tolerances elsewhere, both times the coefficient. *)
Theorem C136_converged :
  forall (C : Type) inf eps delta (lib : library) tmax (callback : C -> C) clock rtl p b c fuel ans s,
    plan_ok p inf -> construct rtl p = Done b -> honest inf eps delta lib -> (forall c, snd (clock c) <= tmax) ->
    optimize_problem inf lib tmax callback clock fuel b c = Ok (Done (ans, s)) -> an_status ans = OPT_CONVERGED ->
    forall t i j, In t (pl_cnts p) -> in_term (pl_steps p) (dofs p) t i j ->
      let X := traj_at (an_traj ans) in let k := coeff (dofs p) t j in let v := dev (dofs p) t X i j in
      (is_exact (dofs p) t -> Rabs k * (v * v) < 1 / 10000) /\
      (~ is_exact (dofs p) t -> k * (v - upper (dofs p) t j) < 1 / 10000 /\ k * (lower (dofs p) t j - v) < 1 / 10000).
Proof.
  intros C inf eps delta lib tmax callback clock rtl p b c fuel ans s OK Eb HR Hclk E Es t i j Ht Hij X k v.
  destruct (C136_reported C inf eps delta lib tmax callback clock rtl p b c fuel ans s OK Eb HR Hclk E) as (_ & (eqs & ineqs & P1 & _ & _ & P4) & Fv). specialize (Fv Es).
  destruct (forall2_in_l _ _ _ t P4 (Permutation_in _ (Permutation_sym P1) Ht)) as (w & Hw & W1 & W2). rewrite Forall_forall in Fv. specialize (Fv w Hw). fold X in W1, W2. split; intros Ex.
  - specialize (W1 Ex). pose proof (over_bound (pl_steps p) (dofs p) t (fun i j => Rabs (coeff (dofs p) t j * (dev (dofs p) t X i j * dev (dofs p) t X i j))) i j ltac:(intros; apply Rabs_pos) Hij) as B. cbn beta in B. rewrite <- W1 in B. fold k v in B.
    rewrite Rabs_mult, (Rabs_right (v * v)) in B by (apply Rle_ge, Rle_0_sqr). lra.
  - specialize (W2 Ex). pose proof (over_bound (pl_steps p) (dofs p) t (excess (dofs p) t X) i j ltac:(intros; apply excess_nonneg) Hij) as B. rewrite <- W2 in B. unfold excess in B. fold k v in B.
    set (a := k * (v - _)) in *. set (e := k * (_ - v)) in *. pose proof (Rmax_l a 0). pose proof (Rmax_r a 0). pose proof (Rmax_l e 0). pose proof (Rmax_r e 0). lra.
Qed.
Print Assumptions C136_converged.

(** ** How good the result is *)
Lemma term_cost_fun m d t X v w : term_cost m d t X v -> term_cost m d t X w -> v = w.
Proof. intros [A1 A2] [B1 B2]. destruct (exact_dec d t) as [E|E]; [rewrite (A1 E), (B1 E)|rewrite (A2 E), (B2 E)]; reflexivity. Qed.
Lemma rsum_conv3 {A} (P1 P2 P3 : A -> R -> Prop) u ts : (forall t a b c, In t ts -> P1 t a -> P2 t b -> P3 t c -> a <= (1 - u) * b + u * c) ->
  forall l1 l2 l3, Forall2 P1 ts l1 -> Forall2 P2 ts l2 -> Forall2 P3 ts l3 -> rsum (fun c => c) l1 <= (1 - u) * rsum (fun c => c) l2 + u * rsum (fun c => c) l3.
Proof.
  induction ts as [|t ts IH]; intros H l1 l2 l3 F1 F2 F3; inversion F1; inversion F2; inversion F3; subst; [rewrite rsum_nil; lra|]. rewrite !rsum_cons.
  pose proof (IH ltac:(intros; eapply H; eauto; right; assumption) _ _ _ ltac:(eassumption) ltac:(eassumption) ltac:(eassumption)). pose proof (H t _ _ _ (or_introl eq_refl) ltac:(eassumption) ltac:(eassumption) ltac:(eassumption)). lra.
Qed.
Lemma wsum_conv3 {A} (P1 P2 P3 : A -> R -> Prop) u ts : (forall t a b c, In t ts -> P1 t a -> P2 t b -> P3 t c -> a <= (1 - u) * b + u * c) ->
  forall l1 l2 l3 mu, Forall (fun k => 0 <= k) mu -> Forall2 P1 ts l1 -> Forall2 P2 ts l2 -> Forall2 P3 ts l3 ->
  rsum (fun vm => snd vm * fst vm) (combine l1 mu) <= (1 - u) * rsum (fun vm => snd vm * fst vm) (combine l2 mu) + u * rsum (fun vm => snd vm * fst vm) (combine l3 mu).
Proof.
  induction ts as [|t ts IH]; intros H l1 l2 l3 mu Hm F1 F2 F3; inversion F1; inversion F2; inversion F3; subst; [cbn; rewrite rsum_nil; lra|]. destruct mu as [|k mu]; [cbn; rewrite rsum_nil; lra|]. apply Forall_cons_iff in Hm as [Hk Hm]. cbn [combine]. rewrite !rsum_cons. cbn [fst snd].
  pose proof (IH ltac:(intros; eapply H; eauto; right; assumption) _ _ _ mu Hm ltac:(eassumption) ltac:(eassumption) ltac:(eassumption)). pose proof (H t _ _ _ (or_introl eq_refl) ltac:(eassumption) ltac:(eassumption) ltac:(eassumption)) as G.
  apply (Rmult_le_compat_l k) in G; [|exact Hk]. lra.
Qed.
Lemma wsum_nonneg (l mu : list R) : Forall (fun v => 0 <= v) l -> Forall (fun k => 0 <= k) mu -> 0 <= rsum (fun vm => snd vm * fst vm) (combine l mu).
Proof.
  revert mu. induction l as [|v l IH]; intros [|k mu] Hl Hm; cbn [combine]; try (rewrite rsum_nil; lra). apply Forall_cons_iff in Hl as [H1 Hl], Hm as [H2 Hm]. rewrite rsum_cons. specialize (IH mu Hl Hm). cbn [fst snd]. pose proof (Rmult_le_pos _ _ H2 H1). lra.
Qed.

Section Best.
  Context (inf : R) (rtl : bool) (p : plan) (b : built).
  Hypothesis OK : plan_ok p inf.
  Hypothesis Eb : construct rtl p = Done b.
  Hypothesis Hb : forall t, In t (pl_costs p) -> bowl (dofs p) t.
  Hypothesis Hn : forall t, In t (pl_cnts p) -> ~ is_exact (dofs p) t.
  Local Notation F := (as_prob inf b).
  Lemma values_viol : exists ts, Permutation ts (pl_cnts p) /\ forall x, Forall2 (fun t v => term_viol (pl_steps p) (dofs p) t (traj_of p x) v) ts (f_viols F x).
  Proof using OK Eb.
    destruct (the_facts inf rtl p b OK Eb) as (ca & na & BF). destruct (cnts_split inf p b ca na OK BF) as (eqs & ineqs & P1 & _ & _ & P4). exists (eqs ++ ineqs). split; [exact P1|]. intros x.
    cbn [f_viols as_prob]. rewrite (cnts_are inf p b ca na BF). apply forall2_map_r. eapply forall2_weaken; [|exact (P4 x)]. intros t a Ht (v & -> & H & _). exact H.
  Qed.
  Lemma traj_line t x z : length z = length x -> forall i j, traj_of p (towards t x z) i j = traj_of p x i j + t * (traj_of p z i j - traj_of p x i j).
  Proof using.
    intros L i j. unfold traj_of. set (k := Z.to_nat _). destruct (Nat.lt_ge_cases k (length x)) as [H|H]; [apply towards_nth; assumption|].
    rewrite !nth_overflow by (rewrite ?towards_len; lia). lra.
  Qed.
  Lemma merit_convex mu x : Forall (fun k => 0 <= k) mu -> convex_from x (merit F mu).
  Proof using OK Eb Hb Hn.
    intros Hm z t L Ht. destruct (the_facts inf rtl p b OK Eb) as (ca & na & BF). destruct values_viol as (ts & P1 & P2). unfold merit.
    pose proof (rsum_conv3 _ _ _ t (pl_costs p) ltac:(intros q va vb vc Hq Ha Hvb Hvc; exact (cost_line (pl_steps p) (dofs p) q t _ _ _ Ht (traj_line t x z L) va vb vc (Hb q Hq) Ha Hvb Hvc)) _ _ _
      (values_cost inf p b ca na OK BF (towards t x z)) (values_cost inf p b ca na OK BF x) (values_cost inf p b ca na OK BF z)) as G1.
    pose proof (wsum_conv3 _ _ _ t ts ltac:(intros q va vb vc Hq Ha Hvb Hvc; exact (viol_line (pl_steps p) (dofs p) q t _ _ _ Ht (traj_line t x z L) va vb vc (Hn q (Permutation_in _ P1 Hq)) Ha Hvb Hvc)) _ _ _ mu Hm (P2 (towards t x z)) (P2 x) (P2 z)) as G2. lra.
  Qed.
  Lemma merit_exact mu x z : convex_merit (convexified F mu x) z = merit F mu z.
  Proof using OK Eb Hn.
    destruct (the_facts inf rtl p b OK Eb) as (ca & na & BF). unfold convex_merit, merit, convexified. cbn [p_costs p_cnts p_mu]. rewrite (costs_exact inf p b ca na OK BF x z). f_equal. exact (viols_exact inf p b ca na OK BF mu x z Hn).
  Qed.
  Lemma merit_nonneg mu x : Forall (fun k => 0 <= k) mu -> 0 <= rsum (fun c => c) (f_costs F x) /\ 0 <= rsum (fun vm => snd vm * fst vm) (combine (f_viols F x) mu).
  Proof using OK Eb Hb Hn.
    intros Hm. destruct (the_facts inf rtl p b OK Eb) as (ca & na & BF). destruct values_viol as (ts & P1 & P2). split.
    - apply rsum_nonneg. intros c Hc. destruct (forall2_in_r _ _ _ c (values_cost inf p b ca na OK BF x) Hc) as (t & Ht & V). exact (cost_nonneg _ _ _ _ _ (Hb t Ht) V).
    - apply wsum_nonneg; [|exact Hm]. apply Forall_forall. intros v Hv. destruct (forall2_in_r _ _ _ v (P2 x) Hv) as (t & _ & V). exact (viol_nonneg _ _ _ _ _ V).
  Qed.
  (** the point vector of a trajectory *)
  Definition vec_of (Y : Z -> Z -> R) : list R := map (fun k => Y (Z.of_nat (k / dofs p)) (Z.of_nat (k mod dofs p))) (seq 0 (count p)).
  Lemma vec_of_len Y : length (vec_of Y) = count p. Proof using. unfold vec_of. rewrite map_length, seq_length. reflexivity. Qed.
  Lemma vec_of_at Y i j : (0 <= i < pl_steps p)%Z -> (0 <= j < Z.of_nat (dofs p))%Z -> traj_of p (vec_of Y) i j = Y i j.
  Proof using.
    intros Hi Hj. pose proof (cell_lt p i j Hi Hj) as Hc. unfold traj_of. fold (cell_of p i j). unfold vec_of. rewrite (nth_indep _ 0 ((fun k => Y (Z.of_nat (k / dofs p)) (Z.of_nat (k mod dofs p))) 0%nat)) by (rewrite map_length, seq_length; exact Hc).
    rewrite (map_nth (fun k => Y (Z.of_nat (k / dofs p)) (Z.of_nat (k mod dofs p)))), seq_nth by exact Hc. cbn [Nat.add]. f_equal.
    - unfold cell_of. rewrite Nat2Z.inj_div, Z2Nat.id by nia. rewrite Z.div_add_l, Z.div_small by lia. lia.
    - unfold cell_of. rewrite Nat2Z.inj_mod, Z2Nat.id by nia. rewrite Z.add_comm, Z.mod_add, Z.mod_small by lia. lia.
  Qed.
  Lemma obeys_region x D Y : length x = count p -> obeys p Y -> (forall i j, (0 <= i < pl_steps p)%Z -> (0 <= j < Z.of_nat (dofs p))%Z -> Rabs (Y i j - traj_of p x i j) <= D) -> in_region inf F x D (vec_of Y).
  Proof using OK Eb.
    intros Lx [O1 O2] HD. destruct (the_facts inf rtl p b OK Eb) as (ca & na & BF). split; [rewrite vec_of_len; congruence|]. split.
    - intros c Hc. cbn [f_lin as_prob] in Hc. apply in_map_iff in Hc as (e & <- & He). cbn [fst snd]. destruct BF as (_ & _ & _ & _ & B5 & _). destruct (B5 e He) as (_ & _ & i & j & Hf & V). pose proof Hf as ((Hi & Hj) & _).
      rewrite V, vec_of_at, (O2 i j Hf) by assumption. lra.
    - intros k Hk. rewrite Lx in Hk. destruct (cell_onto inf p OK k Hk) as (i & j & Hi & Hj & ->). destruct (bounds_are inf p b ca na BF i j Hi Hj) as [-> ->]. specialize (HD i j Hi Hj). rewrite <- (vec_of_at Y i j Hi Hj) in HD. unfold traj_of in HD. fold (cell_of p i j) in HD.
      pose proof (vec_of_at Y i j Hi Hj) as V. unfold traj_of in V. fold (cell_of p i j) in V. split; [rewrite V; apply O1; assumption|exact HD].
  Qed.
  Lemma same_costs Y vs : Forall2 (fun t v => term_cost (pl_steps p) (dofs p) t Y v) (pl_costs p) vs -> f_costs F (vec_of Y) = vs.
  Proof using OK Eb.
    intros Hv. destruct (the_facts inf rtl p b OK Eb) as (ca & na & BF). pose proof (values_cost inf p b ca na OK BF (vec_of Y)) as V.
    assert (K : forall t, In t (pl_costs p) -> forall v, term_cost (pl_steps p) (dofs p) t (traj_of p (vec_of Y)) v -> term_cost (pl_steps p) (dofs p) t Y v).
    { intros t Ht v. apply (cost_same inf p OK t _ _ v Ht). intros i j Hi Hj. apply vec_of_at; assumption. }
    revert vs Hv K V. generalize (f_costs F (vec_of Y)) as l. generalize (pl_costs p) as ts. induction ts as [|t ts IH]; intros l vs Hv K V; inversion Hv; inversion V; subst; [reflexivity|]. f_equal; [|apply IH; auto; intros q Hq; apply K; right; exact Hq].
    eapply term_cost_fun; [apply K; [left; reflexivity|eassumption]|eassumption].
  Qed.
  Lemma met_zero Y mu : (forall t, In t (pl_cnts p) -> met (pl_steps p) (dofs p) t Y) -> rsum (fun vm => snd vm * fst vm) (combine (f_viols F (vec_of Y)) mu) = 0.
  Proof using OK Eb Hn.
    intros Hm. destruct values_viol as (ts & P1 & P2). specialize (P2 (vec_of Y)).
    assert (G : Forall (fun v => v = 0) (f_viols F (vec_of Y))).
    { apply Forall_forall. intros v Hv. destruct (forall2_in_r _ _ _ v P2 Hv) as (t & Ht & V). apply (Permutation_in _ P1) in Ht.
      apply (viol_same inf p OK t _ Y) in V; [|exact Ht|intros i j Hi Hj; apply vec_of_at; assumption]. destruct V as [_ V]. rewrite (V (Hn t Ht)). apply over_zero. apply Hm, Ht. }
    revert mu G. generalize (f_viols F (vec_of Y)) as l. induction l as [|v l IH]; intros [|k mu] G; cbn [combine]; rewrite ?rsum_nil; try reflexivity. apply Forall_cons_iff in G as [-> G]. rewrite rsum_cons, IH by exact G. cbn. lra.
  Qed.
End Best.

(** Without equality constraint terms the problem is convex, and the convexification exact.  If the last thing done was to solve a QP and
    not to take the step, then no trajectory obeying limits, fixed values and constraints has costs lower by much: how much less depends
    on the solver's accuracy, the improvement thresholds, and how far away it is compared to the trust region. *)
Theorem C136_best :
  forall (C : Type) inf eps delta (lib : library) tmax (callback : C -> C) clock rtl p b c fuel ans s tr,
    plan_ok p inf -> construct rtl p = Done b -> honest inf eps delta lib -> (forall c, snd (clock c) <= tmax) -> 0 <= eps -> 0 <= delta ->
    (forall t, In t (pl_costs p) -> bowl (dofs p) t) -> (forall t, In t (pl_cnts p) -> ~ is_exact (dofs p) t) ->
    optimize_problem inf lib tmax callback clock fuel b c = Ok (Done (ans, s)) -> o_trace s = OQP true :: tr -> obeys p (traj_at (an_traj ans)) ->
    an_status ans = OPT_CONVERGED /\ 1 / 10000 <= o_box s /\
    let mu := o_merit s in let M := rsum (fun c => c) (an_costs ans) + rsum (fun vm => snd vm * fst vm) (combine (an_viols ans) mu) in
    forall Y D vs, obeys p Y -> (forall t, In t (pl_cnts p) -> met (pl_steps p) (dofs p) t Y) ->
      (forall i j, (0 <= i < pl_steps p)%Z -> (0 <= j < Z.of_nat (dofs p))%Z -> Rabs (Y i j - traj_at (an_traj ans) i j) <= D) -> o_box s <= D ->
      Forall2 (fun t v => term_cost (pl_steps p) (dofs p) t Y v) (pl_costs p) vs ->
      rsum (fun c => c) (an_costs ans) <= rsum (fun c => c) vs +
        (delta + cnt_weight (convexified (as_prob inf b) mu (o_x s)) * eps + Rmax (1 / 10000) (1 / 1000 * M)) * (D / o_box s).
Proof.
  intros C inf eps delta lib tmax callback clock rtl p b c fuel ans s tr OK Eb HR Hclk He Hdl Hb Hn E Et Ho.
  destruct (run_ok inf rtl p b OK Eb eps) as (R1 & R2 & R3 & R4). destruct (the_traj inf lib tmax callback clock rtl p b OK Eb fuel c ans s E) as (_ & _ & T3). pose proof (plan_params_ok tmax) as PO. destruct (params_values tmax) as (V1 & V2 & V3 & _).
  apply opt_inv in E as (E & _ & Ec & Ev).
  assert (Hc : forall w, snd (o_clock (run_env inf lib (as_prob inf b) callback clock) w) <= omax_time (plan_params tmax)).
  { intros w. cbn [o_clock run_env]. specialize (Hclk (w_rest w)). destruct (clock (w_rest w)) as [c' el]. exact Hclk. }
  pose proof (evaluated (plan_params tmax) (run_env inf lib (as_prob inf b) callback clock) fuel (traj_vec (b_init b)) (run_start inf lib (as_prob inf b) (traj_vec (b_init b)) (ndec 1 (-1)) c) (an_status ans) s Hc ltac:(cbn; lra) E) as Ne.
  destruct (C10_values_of_x_partial R _ _ (plan_params tmax) (run_env inf lib (as_prob inf b) callback clock) fuel (traj_vec (b_init b)) (run_start inf lib (as_prob inf b) (traj_vec (b_init b)) (ndec 1 (-1)) c) (an_status ans) s eq_refl E) as [(_ & _ & _ & N)|(U1 & U2 & _)]; [contradiction|].
  cbn [o_costs o_viols run_env] in U1, U2. rewrite U1 in Ec. rewrite U2 in Ev. clear U1 U2 Ne Hc.
  destruct (C133_stationary C inf eps delta lib (as_prob inf b) (plan_params tmax) callback clock fuel _ _ c _ s tr R1 PO HR R2 R3 E Et) as (S1 & S2 & _ & _). rewrite V1 in S2. split; [exact S1|]. split; [exact S2|]. intros mu M Y D vs Yo Ym HD HB Hv.
  destruct (C133_limits C inf eps delta lib (as_prob inf b) (plan_params tmax) callback clock fuel _ _ c _ s R1 PO HR R2 R3 E) as (Lx & _). rewrite R4 in Lx.
  assert (Hmu : Forall (fun k => 0 <= k) mu).
  { pose proof (run_shape inf eps delta lib (as_prob inf b) (plan_params tmax) callback clock (traj_vec (b_init b)) R1 PO HR fuel (ndec 1 (-1)) c R2 R3) as K. rewrite E in K. destruct K as (s' & -> & K). unfold mu. cbn [o_merit with_oworld]. destruct K as [((_ & _ & _ & B & _) & _)|(((_ & _ & _ & B & _) & _) & _)]; exact B. }
  assert (Mx : M = merit (as_prob inf b) mu (o_x s)) by (unfold M, merit; rewrite Ec, Ev; reflexivity).
  destruct (merit_nonneg inf rtl p b OK Eb Hb Hn mu (o_x s) Hmu) as [N1 N2]. destruct (merit_nonneg inf rtl p b OK Eb Hb Hn mu (vec_of p Y) Hmu) as [N3 _]. rewrite (same_costs inf rtl p b OK Eb Y vs Hv) in N3.
  assert (Hw : 0 <= cnt_weight (convexified (as_prob inf b) mu (o_x s))).
  { unfold cnt_weight. apply rsum_nonneg. intros [k w] Hk. apply in_combine_r in Hk. cbn [p_mu convexified] in Hk. rewrite Forall_forall in Hmu. apply Hmu in Hk. cbn [fst snd]. apply Rmult_le_pos; [exact Hk|]. pose proof (pos_INR (length (cc_eqs k))). pose proof (pos_INR (length (cc_ineqs k))). lra. }
  set (W := cnt_weight _) in *. set (G := delta + W * eps + _). assert (Gp : 0 < G) by (unfold G; pose proof (Rmax_l (1 / 10000) (1 / 1000 * M)); pose proof (Rmult_le_pos _ _ Hw He); lra).
  assert (HDb : 0 < D / o_box s) by (apply Rdiv_lt_0_compat; lra). pose proof (Rmult_lt_0_compat _ _ Gp HDb) as GD.
  destruct (Rle_lt_dec M 0) as [Z0|Mp].
  - assert (rsum (fun c => c) (an_costs ans) <= 0) by (rewrite Ec; unfold merit in Mx; lra). lra.
  - assert (Reg0 : in_region inf (as_prob inf b) (o_x s) 0 (o_x s)).
    { destruct (obeys_region inf rtl p b OK Eb (o_x s) 0 (traj_at (an_traj ans)) Lx Ho) as (L1 & L2 & L3).
      - intros i j Hi Hj. rewrite (T3 i j Hi Hj), Rminus_diag_eq, Rabs_R0 by reflexivity. lra.
      - replace (vec_of p (traj_at (an_traj ans))) with (o_x s) in *; [split; [exact L1|split; [exact L2|exact L3]]|]. apply (nth_ext _ _ 0 0); [rewrite vec_of_len; exact Lx|]. intros k Hk. rewrite Lx in Hk. destruct (cell_onto inf p OK k Hk) as (i & j & Hi & Hj & ->).
        pose proof (vec_of_at p (traj_at (an_traj ans)) i j Hi Hj) as V. unfold traj_of in V. fold (cell_of p i j) in V. rewrite V, (T3 i j Hi Hj). reflexivity. }
    assert (RegY : in_region inf (as_prob inf b) (o_x s) D (vec_of p Y)).
    { apply (obeys_region inf rtl p b OK Eb (o_x s) D Y Lx Yo). intros i j Hi Hj. rewrite <- (T3 i j Hi Hj). apply HD; assumption. }
    pose proof (C133_convex C inf eps delta lib (as_prob inf b) (plan_params tmax) callback clock fuel _ _ c _ s tr R1 PO HR R2 R3 E Et ltac:(lra) ltac:(fold mu; rewrite <- Mx; exact Mp) Reg0
      (merit_convex inf rtl p b OK Eb Hb Hn (o_merit s) (o_x s) Hmu) ltac:(intros z _; right; apply (merit_exact inf rtl p b OK Eb Hn)) D (vec_of p Y) HB RegY) as K.
    fold mu in K. rewrite V2, V3 in K. unfold merit at 2 in K. rewrite (same_costs inf rtl p b OK Eb Y vs Hv), (met_zero inf rtl p b OK Eb Hn Y mu Ym) in K. rewrite <- Mx in K. fold W G in K. unfold merit in Mx. rewrite Ec. lra.
Qed.
Print Assumptions C136_best.

(** With equality constraint terms too: their linearised violation is the absolute deviation times the coefficient, so a further part
    accounts for the difference at the result; it vanishes for trajectories within the trust region. *)
Definition term_lin (m : Z) (d : nat) (t : order * jterm R) (X : Z -> Z -> R) (v : R) : Prop :=
  (is_exact d t -> v = over_term m d t (fun i j => Rabs (coeff d t j * dev d t X i j))) /\ (~ is_exact d t -> v = over_term m d t (excess d t X)).
Lemma lin_line m d q t X Y Z vx vy vz : 0 <= t <= 1 -> (forall i j, X i j = Y i j + t * (Z i j - Y i j)) -> term_lin m d q X vx -> term_lin m d q Y vy -> term_lin m d q Z vz -> vx <= (1 - t) * vy + t * vz.
Proof.
  intros Ht HX [X1 X2] [Y1 Y2] [Z1 Z2]. destruct (exact_dec d q) as [E|E]; [rewrite (X1 E), (Y1 E), (Z1 E)|rewrite (X2 E), (Y2 E), (Z2 E)]; apply over_conv; intros i j Hij; [|apply (excess_line d q t X Y Z Ht HX)].
  rewrite (dev_line d q t X Y Z HX). set (a := dev d q Y i j). set (c := dev d q Z i j). set (k := coeff d q j).
  replace (k * ((1 - t) * a + t * c)) with ((1 - t) * (k * a) + t * (k * c)) by ring. eapply Rle_trans; [apply Rabs_triang|]. rewrite (Rabs_mult (1 - t)), (Rabs_mult t), (Rabs_right (1 - t)), (Rabs_right t) by lra. lra.
Qed.
Section Linear.
  Context (inf : R) (rtl : bool) (p : plan) (b : built).
  Hypothesis OK : plan_ok p inf.
  Hypothesis Eb : construct rtl p = Done b.
  Local Notation F := (as_prob inf b).
  Lemma lin_values : exists ts, Permutation ts (pl_cnts p) /\ forall x, Forall2 (fun t v => term_viol (pl_steps p) (dofs p) t (traj_of p x) v) ts (f_viols F x) /\
    exists ls, Forall2 (fun t v => term_lin (pl_steps p) (dofs p) t (traj_of p x) v) ts ls /\
      forall mu x0, rsum (fun ck => snd ck * convex_viol x (fst ck)) (combine (f_ccnts F x0) mu) = rsum (fun vm => snd vm * fst vm) (combine ls mu).
  Proof using OK Eb.
    destruct (the_facts inf rtl p b OK Eb) as (ca & na & BF). destruct (cnts_split inf p b ca na OK BF) as (eqs & ineqs & P1 & _ & _ & P4). exists (eqs ++ ineqs). split; [exact P1|]. intros x. specialize (P4 x). split.
    - cbn [f_viols as_prob]. rewrite (cnts_are inf p b ca na BF). apply forall2_map_r. eapply forall2_weaken; [|exact P4]. intros t a Ht (v & -> & H & _). exact H.
    - exists (map (fun a => convex_viol x (cnt_convex a)) (filter (is_cnt true) na ++ filter (is_cnt false) na)). split.
      + apply forall2_map_r. eapply forall2_weaken; [|exact P4]. intros t a Ht (v & _ & [_ V] & _ & N1 & N2 & _). split; [exact N2|]. intros E. rewrite (N1 E). exact (V E).
      + intros mu x0. cbn [f_ccnts as_prob]. rewrite (cnts_are inf p b ca na BF). generalize (filter (is_cnt true) na ++ filter (is_cnt false) na) as l. revert mu. intros mu l. revert mu. induction l as [|a l IH]; intros [|k mu]; cbn [map combine]; rewrite ?rsum_nil; try reflexivity. rewrite !rsum_cons, IH. reflexivity.
  Qed.
  Lemma lin_same t X Y v : In t (pl_cnts p) -> (forall i j, (0 <= i < pl_steps p)%Z -> (0 <= j < Z.of_nat (dofs p))%Z -> X i j = Y i j) -> term_lin (pl_steps p) (dofs p) t X v -> term_lin (pl_steps p) (dofs p) t Y v.
  Proof using OK.
    intros Ht H [C1 C2]. pose proof (dev_same inf p OK t TT_CNT X Y (cnt_ok inf p OK t Ht) H) as D. split; intros E; [rewrite (C1 E)|rewrite (C2 E)]; apply over_ext; intros i j Hij; [|unfold excess]; rewrite (D i j Hij); reflexivity.
  Qed.
  Lemma lin_zero t Y v : In t (pl_cnts p) -> (is_exact (dofs p) t -> forall i j, in_term (pl_steps p) (dofs p) t i j -> dev (dofs p) t Y i j = 0) -> (~ is_exact (dofs p) t -> met (pl_steps p) (dofs p) t Y) ->
    term_lin (pl_steps p) (dofs p) t (traj_of p (vec_of p Y)) v -> v = 0.
  Proof using OK.
    intros Ht H1 H2 V. apply (lin_same t _ Y) in V; [|exact Ht|exact (vec_of_at p Y)]. destruct V as [V1 V2]. destruct (exact_dec (dofs p) t) as [E|E]; [rewrite (V1 E)|rewrite (V2 E)]; apply over_zero; [|apply H2, E]. intros i j Hij. rewrite (H1 E i j Hij), Rmult_0_r, Rabs_R0. reflexivity.
  Qed.
End Linear.
Lemma term_lin_fun m d t X v w : term_lin m d t X v -> term_lin m d t X w -> v = w.
Proof. intros [A1 A2] [B1 B2]. destruct (exact_dec d t) as [E|E]; [rewrite (A1 E), (B1 E)|rewrite (A2 E), (B2 E)]; reflexivity. Qed.
Lemma forall2_fun {A} (P : A -> R -> Prop) ts l l' : (forall t v w, P t v -> P t w -> v = w) -> Forall2 P ts l -> Forall2 P ts l' -> l = l'.
Proof. intros H. revert l l'. induction ts as [|t ts IH]; intros l l' F1 F2; inversion F1; inversion F2; subst; [reflexivity|]. f_equal; [eapply H; eassumption|apply IH; assumption]. Qed.

Theorem C136_best_all :
  forall (C : Type) inf eps delta (lib : library) tmax (callback : C -> C) clock rtl p b c fuel ans s tr,
    plan_ok p inf -> construct rtl p = Done b -> honest inf eps delta lib -> (forall c, snd (clock c) <= tmax) -> 0 <= eps -> 0 <= delta ->
    (forall t, In t (pl_costs p) -> bowl (dofs p) t) ->
    optimize_problem inf lib tmax callback clock fuel b c = Ok (Done (ans, s)) -> o_trace s = OQP true :: tr -> obeys p (traj_at (an_traj ans)) ->
    exists ts, Permutation ts (pl_cnts p) /\ Forall2 (fun t v => term_viol (pl_steps p) (dofs p) t (traj_at (an_traj ans)) v) ts (an_viols ans) /\
    forall ls, Forall2 (fun t v => term_lin (pl_steps p) (dofs p) t (traj_at (an_traj ans)) v) ts ls ->
    let penalty l := rsum (fun vm => snd vm * fst vm) (combine l (o_merit s)) in let M := rsum (fun c => c) (an_costs ans) + penalty (an_viols ans) in
    forall Y D vs, obeys p Y ->
      (forall t, In t (pl_cnts p) -> (is_exact (dofs p) t -> forall i j, in_term (pl_steps p) (dofs p) t i j -> dev (dofs p) t Y i j = 0) /\ (~ is_exact (dofs p) t -> met (pl_steps p) (dofs p) t Y)) ->
      (forall i j, (0 <= i < pl_steps p)%Z -> (0 <= j < Z.of_nat (dofs p))%Z -> Rabs (Y i j - traj_at (an_traj ans) i j) <= D) -> o_box s <= D ->
      Forall2 (fun t v => term_cost (pl_steps p) (dofs p) t Y v) (pl_costs p) vs ->
      M <= rsum (fun c => c) vs + (delta + cnt_weight (convexified (as_prob inf b) (o_merit s) (o_x s)) * eps + Rmax (1 / 10000) (1 / 1000 * M)) * (D / o_box s) +
        Rmax (penalty ls - penalty (an_viols ans)) 0 * (D / o_box s - 1).
Proof.
  intros C inf eps delta lib tmax callback clock rtl p b c fuel ans s tr OK Eb HR Hclk He Hdl Hb E Et Ho.
  destruct (run_ok inf rtl p b OK Eb eps) as (R1 & R2 & R3 & R4). destruct (the_facts inf rtl p b OK Eb) as (ca & na & BF). destruct (the_traj inf lib tmax callback clock rtl p b OK Eb fuel c ans s E) as (_ & _ & T3). pose proof (plan_params_ok tmax) as PO. destruct (params_values tmax) as (V1 & V2 & V3 & _).
  apply opt_inv in E as (E & _ & Ec & Ev).
  assert (Hc : forall w, snd (o_clock (run_env inf lib (as_prob inf b) callback clock) w) <= omax_time (plan_params tmax)).
  { intros w. cbn [o_clock run_env]. specialize (Hclk (w_rest w)). destruct (clock (w_rest w)) as [c' el]. exact Hclk. }
  pose proof (evaluated (plan_params tmax) (run_env inf lib (as_prob inf b) callback clock) fuel (traj_vec (b_init b)) (run_start inf lib (as_prob inf b) (traj_vec (b_init b)) (ndec 1 (-1)) c) (an_status ans) s Hc ltac:(cbn; lra) E) as Ne.
  destruct (C10_values_of_x_partial R _ _ (plan_params tmax) (run_env inf lib (as_prob inf b) callback clock) fuel (traj_vec (b_init b)) (run_start inf lib (as_prob inf b) (traj_vec (b_init b)) (ndec 1 (-1)) c) (an_status ans) s eq_refl E) as [(_ & _ & _ & N)|(U1 & U2 & _)]; [contradiction|].
  cbn [o_costs o_viols run_env] in U1, U2. rewrite U1 in Ec. rewrite U2 in Ev. clear U1 U2 Ne Hc.
  destruct (C133_stationary C inf eps delta lib (as_prob inf b) (plan_params tmax) callback clock fuel _ _ c _ s tr R1 PO HR R2 R3 E Et) as (_ & S2 & _ & St). rewrite V1 in S2. rewrite V2, V3 in St.
  destruct (C133_limits C inf eps delta lib (as_prob inf b) (plan_params tmax) callback clock fuel _ _ c _ s R1 PO HR R2 R3 E) as (Lx & _). rewrite R4 in Lx.
  destruct (lin_values inf rtl p b OK Eb) as (ts & P1 & P2). exists ts. split; [exact P1|]. split.
  { rewrite Ev. eapply forall2_weaken; [|exact (proj1 (P2 (o_x s)))]. intros t v Ht H. apply (viol_same inf p OK t (traj_of p (o_x s))); [apply (Permutation_in _ P1), Ht| |exact H]. intros i j Hi Hj. symmetry. apply T3; assumption. }
  intros ls Hls penalty M Y D vs Yo Ym HD HB Hv. set (mu := o_merit s) in *.
  assert (Hmu : Forall (fun k => 0 <= k) mu).
  { pose proof (run_shape inf eps delta lib (as_prob inf b) (plan_params tmax) callback clock (traj_vec (b_init b)) R1 PO HR fuel (ndec 1 (-1)) c R2 R3) as K. rewrite E in K. destruct K as (s' & -> & K). unfold mu. cbn [o_merit with_oworld]. destruct K as [((_ & _ & _ & B & _) & _)|(((_ & _ & _ & B & _) & _) & _)]; exact B. }
  assert (Mx : M = merit (as_prob inf b) mu (o_x s)) by (unfold M, penalty, merit; rewrite Ec, Ev; reflexivity).
  assert (Nv : 0 <= rsum (fun c => c) vs).
  { rewrite <- (same_costs inf rtl p b OK Eb Y vs Hv). apply rsum_nonneg. intros k Hk. destruct (forall2_in_r _ _ _ k (values_cost inf p b ca na OK BF (vec_of p Y)) Hk) as (t & Ht & V). exact (cost_nonneg _ _ _ _ _ (Hb t Ht) V). }
  assert (Hw : 0 <= cnt_weight (convexified (as_prob inf b) mu (o_x s))).
  { unfold cnt_weight. apply rsum_nonneg. intros [k w] Hk. apply in_combine_r in Hk. cbn [p_mu convexified] in Hk. rewrite Forall_forall in Hmu. apply Hmu in Hk. cbn [fst snd]. apply Rmult_le_pos; [exact Hk|]. pose proof (pos_INR (length (cc_eqs k))). pose proof (pos_INR (length (cc_ineqs k))). lra. }
  set (W := cnt_weight _) in *. set (G := delta + W * eps + _). assert (Gp : 0 < G) by (unfold G; pose proof (Rmax_l (1 / 10000) (1 / 1000 * M)); pose proof (Rmult_le_pos _ _ Hw He); lra).
  set (gap := Rmax _ 0). assert (Hg : 0 <= gap) by apply Rmax_r. assert (Hg' : penalty ls - penalty (an_viols ans) <= gap) by apply Rmax_l.
  assert (HDb : 1 <= D / o_box s) by (apply (Rmult_le_reg_r (o_box s)); [lra|]; unfold Rdiv; rewrite Rmult_assoc, Rinv_l by lra; lra).
  pose proof (Rmult_lt_0_compat _ _ Gp (ltac:(lra) : 0 < D / o_box s)) as GD. pose proof (Rmult_le_pos _ _ Hg (ltac:(lra) : 0 <= D / o_box s - 1)) as GG.
  destruct (Rle_lt_dec M 0) as [Z0|Mp]; [lra|].
  assert (Reg0 : in_region inf (as_prob inf b) (o_x s) 0 (o_x s)).
  { destruct (obeys_region inf rtl p b OK Eb (o_x s) 0 (traj_at (an_traj ans)) Lx Ho) as (L1 & L2 & L3).
    - intros i j Hi Hj. rewrite (T3 i j Hi Hj), Rminus_diag_eq, Rabs_R0 by reflexivity. lra.
    - replace (vec_of p (traj_at (an_traj ans))) with (o_x s) in *; [split; [exact L1|split; [exact L2|exact L3]]|]. apply (nth_ext _ _ 0 0); [rewrite vec_of_len; exact Lx|]. intros k Hk. rewrite Lx in Hk. destruct (cell_onto inf p OK k Hk) as (i & j & Hi & Hj & ->).
      pose proof (vec_of_at p (traj_at (an_traj ans)) i j Hi Hj) as V. unfold traj_of in V. fold (cell_of p i j) in V. rewrite V, (T3 i j Hi Hj). reflexivity. }
  assert (RegY : in_region inf (as_prob inf b) (o_x s) D (vec_of p Y)).
  { apply (obeys_region inf rtl p b OK Eb (o_x s) D Y Lx Yo). intros i j Hi Hj. rewrite <- (T3 i j Hi Hj). apply HD; assumption. }
  set (T := o_box s / D). assert (HDp : 0 < D) by lra. assert (HT : 0 < T <= 1).
  { unfold T. split; [apply Rdiv_lt_0_compat; lra|]. apply (Rmult_le_reg_r D); [lra|]. unfold Rdiv. rewrite Rmult_assoc, Rinv_l by lra. lra. }
  assert (HTD : T * D = o_box s) by (unfold T; field; lra). assert (HTi : D / o_box s = / T) by (unfold T; field; lra).
  set (x := o_x s) in *. set (z := vec_of p Y) in *. assert (Lz : length z = length x) by apply RegY.
  assert (Regt : in_region inf (as_prob inf b) x (o_box s) (towards T x z)).
  { destruct Reg0 as (_ & A2 & A3), RegY as (_ & B2 & B3). split; [apply towards_len; exact Lz|]. split.
    - intros k Hk. specialize (A2 k Hk). specialize (B2 k Hk). assert (Ak : aff_in (length x) (snd k)) by (rewrite Lx, <- R4; destruct R1 as (_ & _ & _ & _ & Fl & _); rewrite Forall_forall in Fl; apply Fl; exact Hk). rewrite (towards_value T x z (snd k) Lz Ak). destruct (fst k); [nra|rewrite A2, B2; lra].
    - intros i Hi. destruct (A3 i Hi) as [A4 _]. destruct (B3 i Hi) as [B4 B5]. rewrite (towards_nth T x z i Lz Hi). split; [nra|]. replace (nth i x 0 + T * (nth i z 0 - nth i x 0) - nth i x 0) with (T * (nth i z 0 - nth i x 0)) by ring. rewrite Rabs_mult, (Rabs_right T) by lra. rewrite <- HTD. apply Rmult_le_compat_l; lra. }
  specialize (St ltac:(lra) ltac:(intros i Hi; apply Reg0, Hi) ltac:(rewrite <- Mx; exact Mp) (towards T x z) Regt).
  rewrite <- Mx in St. fold W in St.
  (* the convexified merit on the way *)
  assert (Kc : convex_merit (convexified (as_prob inf b) mu x) (towards T x z) <= (1 - T) * (rsum (fun c => c) (an_costs ans) + penalty ls) + T * rsum (fun c => c) vs).
  { destruct (P2 (towards T x z)) as (_ & lt & Ft & Et'). destruct (P2 x) as (_ & lx & Fx & _). destruct (P2 z) as (_ & lz & Fz & _).
    unfold convex_merit, convexified. cbn [p_costs p_cnts p_mu]. change (rsum (fun ck => snd ck * (rsum (fun a => Rabs (aff_value a (towards T x z))) (cc_eqs (fst ck)) + rsum (fun a => Rmax (aff_value a (towards T x z)) 0) (cc_ineqs (fst ck)))) (combine (f_ccnts (as_prob inf b) x) mu)) with (rsum (fun ck => snd ck * convex_viol (towards T x z) (fst ck)) (combine (f_ccnts (as_prob inf b) x) mu)).
    rewrite (costs_exact inf p b ca na OK BF x (towards T x z)), Et'.
    assert (lx = ls).
    { eapply (forall2_fun (fun t v => term_lin (pl_steps p) (dofs p) t (traj_at (an_traj ans)) v) ts); [intros t v w; apply term_lin_fun| |exact Hls]. eapply forall2_weaken; [|exact Fx]. intros t v Ht H. apply (lin_same inf p OK t (traj_of p x)); [apply (Permutation_in _ P1), Ht| |exact H]. intros i j Hi Hj. symmetry. apply T3; assumption. }
    subst lx. assert (Zz : rsum (fun vm => snd vm * fst vm) (combine lz mu) = 0).
    { assert (Fz' : Forall (fun v => v = 0) lz).
      { apply Forall_forall. intros v Hin. destruct (forall2_in_r _ _ _ v Fz Hin) as (t & Ht & V). apply (Permutation_in _ P1) in Ht. destruct (Ym t Ht) as [Q1 Q2]. exact (lin_zero inf p OK t Y v Ht Q1 Q2 V). }
      generalize mu. clear - Fz'. induction lz as [|v l IH]; intros [|k m]; cbn [combine]; rewrite ?rsum_nil; try reflexivity. apply Forall_cons_iff in Fz' as [-> Fz']. rewrite rsum_cons, (IH Fz'). cbn. lra. }
    pose proof (rsum_conv3 _ _ _ T (pl_costs p) ltac:(intros q va vb vc Hq Ha Hvb Hvc; exact (cost_line (pl_steps p) (dofs p) q T _ _ _ ltac:(lra) (traj_line p T x z Lz) va vb vc (Hb q Hq) Ha Hvb Hvc)) _ _ _
      (values_cost inf p b ca na OK BF (towards T x z)) (values_cost inf p b ca na OK BF x) (values_cost inf p b ca na OK BF z)) as G1.
    pose proof (wsum_conv3 _ _ _ T ts ltac:(intros q va vb vc Hq Ha Hvb Hvc; exact (lin_line (pl_steps p) (dofs p) q T _ _ _ va vb vc ltac:(lra) (traj_line p T x z Lz) Ha Hvb Hvc)) _ _ _ mu Hmu Ft Fx Fz) as G2.
    rewrite Zz in G2. unfold z in G1. rewrite (same_costs inf rtl p b OK Eb Y vs Hv) in G1. fold z in G1. rewrite <- Ec in G1. unfold penalty. fold mu. lra. }
  assert (Fin : T * M <= T * rsum (fun c => c) vs + G + gap * (1 - T)) by (unfold G; unfold M in St |- *; nra).
  rewrite HTi. apply (Rmult_le_reg_l T); [lra|]. replace (T * (rsum (fun c => c) vs + G * / T + gap * (/ T - 1))) with (T * rsum (fun c => c) vs + G + gap * (1 - T)) by (field; lra). exact Fin.
Qed.
Print Assumptions C136_best_all.

(** ** Runs that end at once *)
Lemma fold_max_below (l : list R) a c : a < c -> Forall (fun v => v < c) l -> fold_left nmax l a < c.
Proof. revert a. induction l as [|v l IH]; intros a Ha Hl; [exact Ha|]. apply Forall_cons_iff in Hl as [Hv Hl]. cbn [fold_left]. apply IH; [|exact Hl]. rewrite nmax_R. apply Rmax_lub_lt; assumption. Qed.
Lemma wsum_const k (l : list R) n : length l = n -> rsum (fun vm => snd vm * fst vm) (combine l (repeat k n)) = k * rsum (fun c => c) l.
Proof. revert n. induction l as [|v l IH]; intros [|n] H; try discriminate; cbn [repeat combine]; [rewrite !rsum_nil; lra|]. injection H as H. rewrite !rsum_cons, (IH n H). cbn [fst snd]. lra. Qed.
Lemma term_viol_fun m d t X v w : term_viol m d t X v -> term_viol m d t X w -> v = w.
Proof. intros [A1 A2] [B1 B2]. destruct (exact_dec d t) as [E|E]; [rewrite (A1 E), (B1 E)|rewrite (A2 E), (B2 E)]; reflexivity. Qed.

Section AtOnce.
  Context (inf : R) (rtl : bool) (p : plan) (b : built) (lib : library) (tmax : R).
  Hypothesis OK : plan_ok p inf.
  Hypothesis Eb : construct rtl p = Done b.
  Hypothesis Hr : honest inf 0 0 lib.
  Hypothesis Ha : forall i, able inf lib i.
  Hypothesis Ht : 0 <= tmax.
  Hypothesis Hb : forall t, In t (pl_costs p) -> bowl (dofs p) t.
  Local Notation F := (as_prob inf b).
  (** where it starts *)
  Definition start_at (i j : Z) : R := Rmin (snd (limits p j) - 1 / 1000) (initial p i j).
  Local Notation x1 := (projected F (traj_vec (b_init b))).
  Lemma projected_at i j : (0 <= i < pl_steps p)%Z -> (0 <= j < Z.of_nat (dofs p))%Z -> traj_of p x1 i j = start_at i j.
  Proof using OK Eb.
    intros Hi Hj. destruct (the_facts inf rtl p b OK Eb) as (ca & na & BF). destruct (run_ok inf rtl p b OK Eb 0) as (R1 & R2 & _ & _). pose proof BF as (_ & Lv & _ & St & _). destruct (traj_vec_facts p (b_init b) St) as [L0 I0]. unfold start_at. rewrite <- (I0 i j Hi Hj).
    destruct (bounds_are inf p b ca na BF i j Hi Hj) as [_ Bu]. rewrite <- Bu.
    unfold traj_of. fold (cell_of p i j). pose proof (cell_lt p i j Hi Hj) as Hc. pose proof (vars_count inf p b ca na BF) as Lf. destruct R1 as (_ & Ll & Lu & _). unfold projected, closest_feasible.
    rewrite (nth_indep _ 0 (closest_feasible1 0 0 0 (1 / 1000))) by (rewrite map_length, !combine_length; lia). rewrite (map_nth (fun t => closest_feasible1 (fst (fst t)) (snd (fst t)) (snd t) (1 / 1000)) _ ((0, 0), 0)).
    rewrite combine_nth by (rewrite combine_length; lia). rewrite combine_nth by lia. cbn [fst snd]. unfold closest_feasible1. cbn zeta. rewrite nfmin_R. rnum. reflexivity.
  Qed.
  Lemma convex_nonneg mu x z : Forall (fun k => 0 <= k) mu -> 0 <= convex_merit (convexified F mu x) z.
  Proof using OK Eb Hb.
    intros Hm. destruct (the_facts inf rtl p b OK Eb) as (ca & na & BF). unfold convex_merit, convexified. cbn [p_costs p_cnts p_mu]. rewrite (costs_exact inf p b ca na OK BF x z). apply Rplus_le_le_0_compat.
    - apply rsum_nonneg. intros c Hc. destruct (forall2_in_r _ _ _ c (values_cost inf p b ca na OK BF z) Hc) as (t & Htt & V). exact (cost_nonneg _ _ _ _ _ (Hb t Htt) V).
    - apply rsum_nonneg. intros [k w] Hk. apply in_combine_r in Hk. rewrite Forall_forall in Hm. apply Hm in Hk. cbn [fst snd]. apply Rmult_le_pos; [exact Hk|]. apply Rplus_le_le_0_compat; apply rsum_nonneg; intros; [apply Rabs_pos|apply Rmax_r].
  Qed.
  Lemma convex_zero mu x Y : Forall (fun t => term_cost (pl_steps p) (dofs p) t Y 0) (pl_costs p) ->
    Forall (fun t => (is_exact (dofs p) t -> forall i j, in_term (pl_steps p) (dofs p) t i j -> dev (dofs p) t Y i j = 0) /\ (~ is_exact (dofs p) t -> met (pl_steps p) (dofs p) t Y)) (pl_cnts p) ->
    convex_merit (convexified F mu x) (vec_of p Y) = 0.
  Proof using OK Eb.
    intros Hc Hn. destruct (the_facts inf rtl p b OK Eb) as (ca & na & BF). unfold convex_merit, convexified. cbn [p_costs p_cnts p_mu]. rewrite (costs_exact inf p b ca na OK BF x (vec_of p Y)).
    assert (E1 : f_costs F (vec_of p Y) = repeat 0 (length (pl_costs p))).
    { apply (same_costs inf rtl p b OK Eb). clear - Hc. induction (pl_costs p) as [|t ts IH]; cbn [repeat length]; [constructor|]. apply Forall_cons_iff in Hc as [H1 H2]. constructor; [exact H1|apply IH, H2]. }
    rewrite E1. assert (Z0 : forall n, rsum (fun c : R => c) (repeat 0 n) = 0) by (induction n as [|n IH]; cbn [repeat]; [apply rsum_nil|rewrite rsum_cons, IH; lra]). rewrite Z0.
    assert (E2 : forall a, In a (filter (is_cnt true) na ++ filter (is_cnt false) na) -> convex_viol (vec_of p Y) (cnt_convex a) = 0).
    { intros a Hin. destruct (cnts_split inf p b ca na OK BF) as (eqs & ineqs & P1 & _ & _ & P4). destruct (forall2_in_r _ _ _ a (P4 (vec_of p Y)) Hin) as (t & Ht' & v & _ & V & _ & N1 & N2 & _). apply (Permutation_in _ P1) in Ht'. rewrite Forall_forall in Hn. destruct (Hn t Ht') as [Q1 Q2].
      destruct (exact_dec (dofs p) t) as [Ex|Ex].
      - rewrite (N2 Ex). apply over_zero. intros i j Hij. rewrite (dev_same inf p OK t TT_CNT (traj_of p (vec_of p Y)) Y (cnt_ok inf p OK t Ht') (vec_of_at p Y) i j Hij), (Q1 Ex i j Hij), Rmult_0_r, Rabs_R0. reflexivity.
      - rewrite (N1 Ex). apply (viol_same inf p OK t _ Y) in V; [|exact Ht'|exact (vec_of_at p Y)]. destruct V as [_ V]. rewrite (V Ex). apply over_zero. apply (Q2 Ex). }
    cbn [f_ccnts as_prob]. rewrite (cnts_are inf p b ca na BF). rewrite Rplus_0_l. revert mu E2. generalize (filter (is_cnt true) na ++ filter (is_cnt false) na) as l. induction l as [|a l IH]; intros [|k mu] E2; cbn [map combine]; rewrite ?rsum_nil; try reflexivity.
    rewrite rsum_cons, IH by (intros q Hq; apply E2; right; exact Hq). cbn [fst snd]. specialize (E2 a (or_introl eq_refl)). unfold convex_viol in E2. rewrite E2. lra.
  Qed.

  Lemma at_once Y vs ws k : (forall i j, (0 <= i < pl_steps p)%Z -> (0 <= j < Z.of_nat (dofs p))%Z -> fst (limits p j) <= start_at i j <= snd (limits p j)) ->
    obeys p Y -> (forall i j, (0 <= i < pl_steps p)%Z -> (0 <= j < Z.of_nat (dofs p))%Z -> Rabs (Y i j - start_at i j) <= 1 / 10) ->
    Forall (fun t => term_cost (pl_steps p) (dofs p) t Y 0) (pl_costs p) ->
    Forall (fun t => (is_exact (dofs p) t -> forall i j, in_term (pl_steps p) (dofs p) t i j -> dev (dofs p) t Y i j = 0) /\ (~ is_exact (dofs p) t -> met (pl_steps p) (dofs p) t Y)) (pl_cnts p) ->
    Forall2 (fun t v => term_cost (pl_steps p) (dofs p) t start_at v) (pl_costs p) vs -> Forall2 (fun t v => term_viol (pl_steps p) (dofs p) t start_at v) (pl_cnts p) ws ->
    rsum (fun c => c) vs + 20 * rsum (fun c => c) ws < 1 / 10000 ->
    exists ans s tr, optimize_problem inf lib tmax (fun u : unit => u) (fun u => (u, 0)) (S k) b tt = Ok (Done (ans, s)) /\ an_status ans = OPT_CONVERGED /\
      o_box s = 1 / 10 /\ o_trace s = OQP true :: tr /\ forall i j, (0 <= i < pl_steps p)%Z -> (0 <= j < Z.of_nat (dofs p))%Z -> traj_at (an_traj ans) i j = start_at i j.
  Proof using OK Eb Hr Ha Ht Hb.
    intros Hlim Yo Yd Yc Yn Hv Hw Hsum. destruct (the_facts inf rtl p b OK Eb) as (ca & na & BF). destruct (run_ok inf rtl p b OK Eb 0) as (R1 & R2 & R3 & R4). pose proof (plan_params_ok tmax) as PO. destruct (params_values tmax) as (V1 & V2 & V3 & V4 & _ & V6 & _ & V8).
    set (s0 := began inf lib F (plan_params tmax) (traj_vec (b_init b)) (ndec 1 (-1)) tt).
    assert (X0 : o_x s0 = x1) by reflexivity. assert (B0 : o_box s0 = 1 / 10) by exact V8. assert (M0 : o_merit s0 = repeat 20 (f_ncnt F)) by (unfold s0, began; cbn [o_merit with_point with_omerit]; rewrite V6; reflexivity).
    assert (L1 : length x1 = count p) by (destruct R1 as (_ & Ll & Lu & _); unfold projected; rewrite closest_len; congruence).
    assert (Mn : Forall (fun k => 0 <= k) (o_merit s0)) by (rewrite M0; apply Forall_forall; intros q Hq; apply repeat_spec in Hq; lra).
    (* the values at the start *)
    assert (C1 : f_costs F x1 = vs).
    { eapply (forall2_fun (fun t v => term_cost (pl_steps p) (dofs p) t (traj_of p x1) v) (pl_costs p)); [intros t v w; apply term_cost_fun|apply (values_cost inf p b ca na OK BF)|]. eapply forall2_weaken; [|exact Hv]. intros t v Hin. apply (cost_same inf p OK t _ _ v Hin). intros i j Hi Hj. symmetry. apply projected_at; assumption. }
    destruct (values_viol inf rtl p b OK Eb) as (ts & P1 & P2). destruct (Permutation_Forall2 P1 (P2 x1)) as (ws' & Pw & Fw).
    assert (Ew : ws' = ws).
    { eapply (forall2_fun (fun t v => term_viol (pl_steps p) (dofs p) t (traj_of p x1) v) (pl_cnts p)); [intros t v w; apply term_viol_fun|exact Fw|]. eapply forall2_weaken; [|exact Hw]. intros t v Hin. apply (viol_same inf p OK t _ _ v Hin). intros i j Hi Hj. symmetry. apply projected_at; assumption. }
    subst ws'. assert (Wn : Forall (fun v => 0 <= v) (f_viols F x1)).
    { apply Forall_forall. intros v Hin. destruct (forall2_in_r _ _ _ v (P2 x1) Hin) as (t & _ & V). exact (viol_nonneg _ _ _ _ _ V). }
    assert (Cn : 0 <= rsum (fun c => c) vs).
    { rewrite <- C1. apply rsum_nonneg. intros c Hc. destruct (forall2_in_r _ _ _ c (values_cost inf p b ca na OK BF x1) Hc) as (t & Htt & V). exact (cost_nonneg _ _ _ _ _ (Hb t Htt) V). }
    assert (Lv : length (f_viols F x1) = f_ncnt F) by (apply R1; [rewrite L1; symmetry; exact R4|left; reflexivity]).
    assert (Mx : merit F (o_merit s0) x1 = rsum (fun c => c) vs + 20 * rsum (fun c => c) ws) by (unfold merit; rewrite C1, M0, (wsum_const 20 _ _ Lv), (rsum_perm (fun c : R => c) _ _ Pw); reflexivity).
    assert (Sm : forall v, In v (f_viols F x1) -> v < 1 / 10000).
    { intros v Hin. assert (v <= rsum (fun c => c) ws).
      { rewrite <- (rsum_perm (fun c : R => c) _ _ Pw). clear - Wn Hin. induction (f_viols F x1) as [|w l IH]; [destruct Hin|]. apply Forall_cons_iff in Wn as [W1 W2]. rewrite rsum_cons. assert (0 <= rsum (fun c => c) l) by (apply rsum_nonneg; rewrite Forall_forall in W2; exact W2). destruct Hin as [->|Hin]; [lra|]. specialize (IH W2 Hin). lra. }
      rewrite Forall_forall in Wn. specialize (Wn v Hin). lra. }
    assert (Lim : forall i, (i < length x1)%nat -> nth i (f_lb F) 0 <= nth i x1 0 <= nth i (f_ub F) 0).
    { intros q Hq. rewrite L1 in Hq. destruct (cell_onto inf p OK q Hq) as (i & j & Hi & Hj & ->). destruct (bounds_are inf p b ca na BF i j Hi Hj) as [-> ->]. pose proof (projected_at i j Hi Hj) as E. unfold traj_of in E. fold (cell_of p i j) in E. rewrite E. apply Hlim; assumption. }
    assert (Al : allowed inf 0 (f_lin F) (box_lo (f_lb F) (f_ub F) x1 (1 / 10)) (box_hi (f_lb F) (f_ub F) x1 (1 / 10)) (vec_of p Y)).
    { eapply region_allowed; [exact R1|congruence|lra|exact Lim|]. apply (obeys_region inf rtl p b OK Eb x1 (1 / 10) Y L1 Yo). intros i j Hi Hj. rewrite projected_at by assumption. apply Yd; assumption. }
    pose proof (convex_zero (o_merit s0) x1 Y Yc Yn) as Z0.
    destruct (no_gain inf 0 0 lib F (plan_params tmax) (fun u : unit => u) (fun u => (u, 0)) _ R1 PO Hr Ha) with (s := s0) (k := k) (j := k) (it := 1%Z) as (s' & Es & X' & B' & _ & W' & tr & T').
    - intros c0. exact Ht.
    - apply (began_between inf 0 0); [exact R1|exact PO|exact Hr|exact R2].
    - rewrite V1, B0. lra.
    - exists (vec_of p Y). split; [rewrite vec_of_len; congruence|]. rewrite X0, B0. split; [exact Al|]. intros z _ _. rewrite Z0. pose proof (convex_nonneg (o_merit s0) x1 z Mn). lra.
    - intros x q Lx Bx [Fx _]. rewrite X0 in Fx |- *. pose proof (convex_nonneg (o_merit s0) x1 x Mn). rewrite Mx, V2. lra.
    - assert (Ego : run_sqp inf lib F (plan_params tmax) (fun u : unit => u) (fun u => (u, 0)) (S k) (traj_vec (b_init b)) (ndec 1 (-1)) tt =
        obind (omerit_loop (plan_params tmax) (run_env inf lib F (fun u : unit => u) (fun u => (u, 0))) (S k) (S k) 0 s0) (fun '(st, s) => Ok (Some (st, with_oworld s (with_rest (o_world s) (w_rest (o_world s))))))).
      { unfold run_sqp, optimize. unfold s0, began. destruct (traj_vec (b_init b)) as [|a0 l0] eqn:E0; [exfalso; rewrite R4 in R2; cbn [length] in R2; pose proof (count_pos inf p OK); lia|]. reflexivity. }
      cbn [omerit_loop] in Ego. rnum. cbn [omax_merit_coeff_increases plan_params] in Ego. rnum. destruct (Rltb_spec 0 5) as [_|X]; [|lra]. rewrite Es in Ego. cbn [obind] in Ego.
      assert (Fe : ofeasible (plan_params tmax) s' = true).
      { unfold ofeasible. rewrite W', X0. destruct (f_viols F x1) as [|v l]; [reflexivity|]. cbn [vmaxc]. rnum. apply Rltb_true. rewrite V4. apply fold_max_below; [apply Sm; left; reflexivity|]. apply Forall_forall. intros w Hin. apply Sm. right. exact Hin. }
      rewrite Fe in Ego. cbn [obind] in Ego. destruct (opt_of inf lib tmax (fun u : unit => u) (fun u => (u, 0)) rtl p b OK Eb (S k) tt _ _ Ego) as (ans & Eo & Ea).
      exists ans, (with_oworld s' (with_rest (o_world s') (w_rest (o_world s')))), tr. split; [exact Eo|]. split; [exact Ea|]. cbn [o_box o_trace with_oworld]. split; [congruence|]. split; [exact T'|]. intros i j Hi Hj.
      destruct (the_traj inf lib tmax (fun u : unit => u) (fun u => (u, 0)) rtl p b OK Eb (S k) tt ans _ Eo) as (_ & _ & T3). rewrite (T3 i j Hi Hj). cbn [o_x with_oworld]. rewrite X', X0. apply projected_at; assumption.
  Qed.
End AtOnce.

(** ** Examples with one joint *)
Definition ex_term (ty : Z) (target : R) (tol : list R) (first : Z) : jterm R :=
  {| jt_type := ty; jt_coeffs := []; jt_targets := [target]; jt_uppers := tol; jt_lowers := map Ropp tol; jt_first := first; jt_last := -1 |}.
Definition ex_plan (steps : Z) (lim now : R) (fixed : list Z) (costs cnts : list (order * jterm R)) : plan :=
  {| pl_steps := steps; pl_limits := [(- lim, lim)]; pl_init := Stationary; pl_data := {| m_rows := []; m_cols := 0 |}; pl_now := [now];
     pl_fixed_steps := fixed; pl_fixed_dofs := []; pl_costs := costs; pl_cnts := cnts |}.
(** the second of two steps is to be at 0, the velocity within 1/10; the first is fixed at 5/1000 *)
Definition ex_two : plan := ex_plan 2 1 (5 / 1000) [0%Z] [(Pos, ex_term TT_COST 0 [] 1)] [(Vel, ex_term TT_CNT 0 [1 / 10] 0)].
(** one step, to be at 2/1000; one fixed at 5, the upper limit *)
Definition ex_tol : plan := ex_plan 1 1 0 [] [] [(Pos, ex_term TT_CNT (2 / 1000) [] 0)].
Definition ex_fix : plan := ex_plan 1 5 5 [0%Z] [(Pos, ex_term TT_COST 5 [] 0)] [].

Lemma abs_lt a c : - c < a < c -> Rabs a < c. Proof. intros H. apply Rabs_def1; lra. Qed.
Lemma ex_term_ok m o ty target tol first : (steps o < m)%Z -> (0 <= first)%Z -> o = Pos \/ o = Vel -> tol = [] \/ (exists a, tol = [a] /\ Rabs a < 1) -> Rabs target < 10 -> term_ok m 1 (o, ex_term ty target tol first) 100 ty.
Proof.
  intros Hm Hf Ho Ht Hg. unfold term_ok. cbn [fst snd]. split; [exact Hm|]. split; [exact Hf|]. split; [destruct Ho as [->| ->]; exact I|]. split.
  { unfold HatchProps.params_ok, size_ok. cbn [ex_term jt_coeffs jt_targets jt_uppers jt_lowers length]. rewrite map_length. destruct Ht as [->|(a & -> & _)]; cbn [length]; lia. }
  split; [reflexivity|]. intros j Hj. assert (j = 0%Z) as -> by lia. unfold coeff, PlanSpec.target, upper, lower. cbn [snd ex_term jt_coeffs jt_targets jt_uppers jt_lowers].
  assert (-10 < target < 10) by (revert Hg; unfold Rabs; destruct (Rcase_abs _); lra).
  destruct Ht as [->|(a & -> & Ha)]; unfold at_joint; cbn; [repeat apply conj; apply abs_lt; lra|]. assert (-1 < a < 1) by (revert Ha; unfold Rabs; destruct (Rcase_abs _); lra). repeat apply conj; apply abs_lt; lra.
Qed.
Lemma ex_ok steps lim now fixed costs cnts : (1 <= steps < 2 ^ 31)%Z -> 0 <= lim -> Rabs now < 100 -> (forall t, In t fixed -> 0 <= t < steps)%Z ->
  Forall (fun t => term_ok steps 1 t 100 TT_COST) costs -> Forall (fun t => term_ok steps 1 t 100 TT_CNT) cnts -> (costs <> [] \/ cnts <> []) -> plan_ok (ex_plan steps lim now fixed costs cnts) 100.
Proof.
  intros Hs Hl Hn Hf Hc Hd Hne. unfold plan_ok. cbn [ex_plan pl_steps pl_limits pl_now pl_data pl_fixed_steps pl_fixed_dofs pl_costs pl_cnts m_rows concat length]. change (dofs (ex_plan steps lim now fixed costs cnts)) with 1%nat.
  split; [lra|]. split; [exact Hs|]. split; [cbn; lia|]. split; [constructor; [cbn; lra|constructor]|]. split; [reflexivity|]. split; [constructor; [exact Hn|constructor]|]. split; [constructor|]. split; [exact I|]. split; [exact Hf|]. split; [intros j []|]. auto.
Qed.
Lemma two_ok : plan_ok ex_two 100.
Proof.
  apply ex_ok; [cbn; lia|lra|apply abs_lt; lra|intros t [<-|[]]; lia| | |left; discriminate]; (constructor; [|constructor]); apply ex_term_ok; cbn; try lia; auto; try (apply abs_lt; lra). right. exists (1 / 10). split; [reflexivity|apply abs_lt; lra].
Qed.
Lemma tol_ok : plan_ok ex_tol 100.
Proof. apply ex_ok; [cbn; lia|lra|apply abs_lt; lra|intros t []|constructor| |right; discriminate]. constructor; [|constructor]. apply ex_term_ok; cbn; try lia; auto. apply abs_lt; lra. Qed.
Lemma fix_ok : plan_ok ex_fix 100.
Proof. apply ex_ok; [cbn; lia|lra|apply abs_lt; lra|intros t [<-|[]]; lia| |constructor|left; discriminate]. constructor; [|constructor]. apply ex_term_ok; cbn; try lia; auto. apply abs_lt; lra. Qed.

Lemma no_tol_exact o ty target first : is_exact 1 (o, ex_term ty target [] first).
Proof. intros v [<-|[<-|[]]]; rewrite Rabs_R0; lra. Qed.
Lemma tol_not_exact o ty target first : ~ is_exact 1 (o, ex_term ty target [1 / 10] first).
Proof. intros H. specialize (H (1 / 10) (or_introl eq_refl)). unfold Rabs in H. destruct (Rcase_abs _); lra. Qed.
Lemma coeff_one o ty target tol first : coeff 1 (o, ex_term ty target tol first) 0 = 1. Proof. reflexivity. Qed.
Lemma ex_bowl o ty target tol first : bowl 1 (o, ex_term ty target tol first).
Proof. intros _ j Hj. assert (j = 0%Z) as -> by lia. rewrite coeff_one. lra. Qed.
Lemma one_cell (h : Z -> Z -> R) first : bigsum 1 (fun k => bigsum 1 (fun j => h (first + Z.of_nat k)%Z (Z.of_nat j))) = h first 0%Z.
Proof. unfold bigsum. cbn [seq]. rewrite !rsum_cons, !rsum_nil. cbn [Z.of_nat]. rewrite Z.add_0_r. lra. Qed.
Lemma two_cost h : over_term 2 1 (Pos, ex_term TT_COST 0 [] 1) h = h 1%Z 0%Z. Proof. exact (one_cell h 1). Qed.
Lemma two_cnt h : over_term 2 1 (Vel, ex_term TT_CNT 0 [1 / 10] 0) h = h 0%Z 0%Z. Proof. exact (one_cell h 0). Qed.
Lemma one_term ty target h : over_term 1 1 (Pos, ex_term ty target [] 0) h = h 0%Z 0%Z. Proof. exact (one_cell h 0). Qed.
Lemma cost_is m o ty target first X v : v = over_term m 1 (o, ex_term ty target [] first) (fun i j => coeff 1 (o, ex_term ty target [] first) j * (dev 1 (o, ex_term ty target [] first) X i j * dev 1 (o, ex_term ty target [] first) X i j)) ->
  term_cost m 1 (o, ex_term ty target [] first) X v.
Proof. intros ->. split; [reflexivity|]. intros N. exfalso. apply N, no_tol_exact. Qed.

(** the first plan, with a solver that always finds the best: it stops where it started, which is nearly the best *)
Example C136_run : exists rtl b (lib : library) ans s tr,
  plan_ok ex_two 100 /\ construct rtl ex_two = Done b /\ honest 100 0 0 lib /\ (forall t, In t (pl_costs ex_two) -> bowl (dofs ex_two) t) /\ (forall t, In t (pl_cnts ex_two) -> ~ is_exact (dofs ex_two) t) /\
  optimize_problem 100 lib 1 (fun u : unit => u) (fun u => (u, 0)) 1 b tt = Ok (Done (ans, s)) /\ an_status ans = OPT_CONVERGED /\ o_trace s = OQP true :: tr /\ obeys ex_two (traj_at (an_traj ans)) /\
  let Y i (j : Z) := if (i =? 0)%Z then 5 / 1000 else 0 in
  obeys ex_two Y /\ (forall t, In t (pl_cnts ex_two) -> met (pl_steps ex_two) (dofs ex_two) t Y) /\
  (forall i j, (0 <= i < pl_steps ex_two)%Z -> (0 <= j < Z.of_nat (dofs ex_two))%Z -> Rabs (Y i j - traj_at (an_traj ans) i j) <= 1 / 10) /\ o_box s <= 1 / 10 /\
  Forall2 (fun t v => term_cost (pl_steps ex_two) (dofs ex_two) t Y v) (pl_costs ex_two) [0].
Proof.
  destruct (C133_libraries 100) as (r & _ & _ & (Hr & Ha) & _). destruct (built_done 100 ex_two true two_ok) as (b & _ & _ & Eb & _).
  set (Y := fun (i j : Z) => if (i =? 0)%Z then 5 / 1000 else 0).
  assert (S0 : forall i, start_at ex_two i 0 = 5 / 1000) by (intros i; unfold start_at; cbn; unfold at_joint; cbn; apply Rmin_right; lra).
  assert (Hb : forall t, In t (pl_costs ex_two) -> bowl (dofs ex_two) t) by (intros t [<-|[]]; apply ex_bowl).
  assert (Hn : forall t, In t (pl_cnts ex_two) -> ~ is_exact (dofs ex_two) t) by (intros t [<-|[]]; apply tol_not_exact).
  assert (Yo : obeys ex_two Y).
  { split; intros i j H.
    - intros Hj. change (Z.of_nat (dofs ex_two)) with 1%Z in Hj. assert (j = 0%Z) as -> by lia. cbn. unfold Y. destruct (i =? 0)%Z; lra.
    - destruct H as ((Hi & Hj) & [[<-|[]]|[]]). change (Z.of_nat (dofs ex_two)) with 1%Z in Hj. assert (j = 0%Z) as -> by lia. cbn. unfold at_joint. cbn. lra. }
  assert (Ym : forall t, In t (pl_cnts ex_two) -> met (pl_steps ex_two) (dofs ex_two) t Y).
  { intros t [<-|[]] i j Hij. unfold in_term in Hij. cbn in Hij. assert (i = 0%Z) as -> by lia. assert (j = 0%Z) as -> by lia. unfold excess, coeff, dev, target, upper, lower, difference, at_joint, Y. cbn. unfold Rmax. repeat destruct (Rle_dec _ _); lra. }
  assert (Yd : forall X, (forall i j, (0 <= i < pl_steps ex_two)%Z -> (0 <= j < Z.of_nat (dofs ex_two))%Z -> X i j = start_at ex_two i j) ->
    forall i j, (0 <= i < pl_steps ex_two)%Z -> (0 <= j < Z.of_nat (dofs ex_two))%Z -> Rabs (Y i j - X i j) <= 1 / 10).
  { intros X HX i j Hi Hj. rewrite (HX i j Hi Hj). change (Z.of_nat (dofs ex_two)) with 1%Z in Hj. assert (j = 0%Z) as -> by lia. rewrite S0. unfold Y. destruct (i =? 0)%Z; apply Rabs_le; lra. }
  assert (Yc : term_cost (pl_steps ex_two) (dofs ex_two) (Pos, ex_term TT_COST 0 [] 1) Y 0).
  { apply cost_is. rewrite two_cost. unfold coeff, dev, target, difference, at_joint, Y. cbn. lra. }
  destruct (at_once 100 true ex_two b (Osqp 0 false r) 1 two_ok Eb Hr Ha ltac:(lra) Hb Y [25 / 1000000] [0] 0) as (ans & s & tr & E & St & Bx & Tr & Xs).
  - intros i j Hi Hj. change (Z.of_nat (dofs ex_two)) with 1%Z in Hj. assert (j = 0%Z) as -> by lia. rewrite S0. cbn. lra.
  - exact Yo.
  - apply Yd. reflexivity.
  - constructor; [exact Yc|constructor].
  - constructor; [|constructor]. split; [intros N; exfalso; exact (tol_not_exact _ _ _ _ N)|]. intros _. apply Ym. left. reflexivity.
  - constructor; [|constructor]. apply cost_is. rewrite two_cost. unfold coeff, dev, difference. cbn [fst]. rewrite S0. unfold target, at_joint. cbn. lra.
  - constructor; [|constructor]. split; [intros N; exfalso; exact (tol_not_exact _ _ _ _ N)|]. intros _. change (pl_steps ex_two) with 2%Z. change (dofs ex_two) with 1%nat. rewrite two_cnt. unfold excess, dev, difference. cbn [fst]. rewrite !S0. unfold coeff, target, upper, lower, at_joint. cbn. unfold Rmax. repeat destruct (Rle_dec _ _); lra.
  - rewrite !rsum_cons, !rsum_nil. lra.
  - exists true, b, (Osqp 0 false r), ans, s, tr. split; [exact two_ok|]. split; [exact Eb|]. split; [exact Hr|]. split; [exact Hb|]. split; [exact Hn|]. split; [exact E|]. split; [exact St|]. split; [exact Tr|]. split.
    { split; intros i j H.
      - intros Hj. rewrite (Xs i j H Hj). change (Z.of_nat (dofs ex_two)) with 1%Z in Hj. assert (j = 0%Z) as -> by lia. rewrite S0. cbn. lra.
      - pose proof H as ((Hi & Hj) & _). rewrite (Xs i j Hi Hj). change (Z.of_nat (dofs ex_two)) with 1%Z in Hj. assert (j = 0%Z) as -> by lia. rewrite S0. cbn. unfold at_joint. cbn. lra. }
    cbn zeta. split; [exact Yo|]. split; [exact Ym|]. split; [apply Yd; exact Xs|]. split; [lra|]. constructor; [exact Yc|constructor].
Qed.

Lemma tol_runs lib : honest 100 0 0 lib -> (forall i, able 100 lib i) -> exists b ans s tr, construct true ex_tol = Done b /\
  optimize_problem 100 lib 1 (fun u : unit => u) (fun u => (u, 0)) 1 b tt = Ok (Done (ans, s)) /\ an_status ans = OPT_CONVERGED /\ o_box s = 1 / 10 /\ o_trace s = OQP true :: tr /\ traj_at (an_traj ans) 0 0 = 0.
Proof.
  intros Hr Ha. destruct (built_done 100 ex_tol true tol_ok) as (b & _ & _ & Eb & _).
  assert (S0 : forall i, start_at ex_tol i 0 = 0) by (intros i; unfold start_at; cbn; unfold at_joint; cbn; apply Rmin_right; lra).
  assert (D1 : Z.of_nat (dofs ex_tol) = 1%Z) by reflexivity.
  destruct (at_once 100 true ex_tol b lib 1 tol_ok Eb Hr Ha ltac:(lra) ltac:(intros t []) (fun _ _ => 2 / 1000) [] [4 / 1000000] 0) as (ans & s & tr & E & St & Bx & Tr & Xs).
  - intros i j Hi Hj. rewrite D1 in Hj. assert (j = 0%Z) as -> by lia. rewrite S0. cbn. lra.
  - split; intros i j H; [|destruct H as (_ & [[]|[]])]. intros Hj. rewrite D1 in Hj. assert (j = 0%Z) as -> by lia. cbn. lra.
  - intros i j Hi Hj. rewrite D1 in Hj. assert (j = 0%Z) as -> by lia. rewrite S0. apply Rabs_le. lra.
  - constructor.
  - constructor; [|constructor]. split; [|intros N; exfalso; apply N, no_tol_exact]. intros _ i j Hij. unfold in_term in Hij. cbn in Hij. assert (j = 0%Z) as -> by lia. unfold dev, target, difference, at_joint. cbn. lra.
  - constructor.
  - constructor; [|constructor]. split; [|intros N; exfalso; apply N, no_tol_exact]. intros _. change (pl_steps ex_tol) with 1%Z. change (dofs ex_tol) with 1%nat. rewrite one_term. unfold dev, difference. cbn [fst]. rewrite S0. unfold coeff, target, at_joint. cbn. rewrite Rabs_right; lra.
  - rewrite !rsum_cons, !rsum_nil. lra.
  - exists b, ans, s, tr. split; [exact Eb|]. split; [exact E|]. split; [exact St|]. split; [exact Bx|]. split; [exact Tr|]. rewrite (Xs 0%Z 0%Z ltac:(cbn; lia) ltac:(cbn; lia)). apply S0.
Qed.

(** the hypotheses of [C136_best_all] with an equality constraint *)
Example C136_run_exact : exists b (lib : library) ans s tr,
  plan_ok ex_tol 100 /\ construct true ex_tol = Done b /\ honest 100 0 0 lib /\ (forall t, In t (pl_costs ex_tol) -> bowl (dofs ex_tol) t) /\
  optimize_problem 100 lib 1 (fun u : unit => u) (fun u => (u, 0)) 1 b tt = Ok (Done (ans, s)) /\ o_trace s = OQP true :: tr /\ obeys ex_tol (traj_at (an_traj ans)) /\
  let Y (i j : Z) := 2 / 1000 in
  obeys ex_tol Y /\ (forall t, In t (pl_cnts ex_tol) -> (is_exact (dofs ex_tol) t -> forall i j, in_term (pl_steps ex_tol) (dofs ex_tol) t i j -> dev (dofs ex_tol) t Y i j = 0) /\ (~ is_exact (dofs ex_tol) t -> met (pl_steps ex_tol) (dofs ex_tol) t Y)) /\
  (forall i j, (0 <= i < pl_steps ex_tol)%Z -> (0 <= j < Z.of_nat (dofs ex_tol))%Z -> Rabs (Y i j - traj_at (an_traj ans) i j) <= 1 / 10) /\ o_box s <= 1 / 10 /\
  Forall2 (fun t v => term_cost (pl_steps ex_tol) (dofs ex_tol) t Y v) (pl_costs ex_tol) [].
Proof.
  destruct (C133_libraries 100) as (r & _ & _ & (Hr & Ha) & _). destruct (tol_runs _ Hr Ha) as (b & ans & s & tr & Eb & E & St & Bx & Tr & X0). exists b, (Osqp 0 false r), ans, s, tr. assert (D1 : Z.of_nat (dofs ex_tol) = 1%Z) by reflexivity. change (pl_steps ex_tol) with 1%Z.
  assert (Ob : forall X : Z -> Z -> R, -1 <= X 0%Z 0%Z <= 1 -> obeys ex_tol X).
  { intros X HX. split; intros i j H; [|destruct H as (_ & [[]|[]])]. intros Hj. rewrite D1 in Hj. change (pl_steps ex_tol) with 1%Z in H. assert (j = 0%Z) as -> by lia. assert (i = 0%Z) as -> by lia. cbn. lra. }
  split; [exact tol_ok|]. split; [exact Eb|]. split; [exact Hr|]. split; [intros t []|]. split; [exact E|]. split; [exact Tr|]. split; [apply Ob; rewrite X0; lra|]. cbn zeta. split; [apply Ob; lra|]. split.
  - intros t [<-|[]]. split; [|intros N; exfalso; apply N, no_tol_exact]. intros _ i j Hij. unfold in_term in Hij. cbn in Hij. assert (j = 0%Z) as -> by lia. unfold dev, target, difference, at_joint. cbn. lra.
  - split; [|split; [lra|constructor]]. intros i j Hi Hj. rewrite D1 in Hj. assert (j = 0%Z) as -> by lia. assert (i = 0%Z) as -> by lia. rewrite X0. apply Rabs_le. lra.
Qed.

(** "Converged within cnt_tolerance" is not about the deviation from the target: the violation is its square, and here the solver stops
    at once, twenty times the tolerance away from the target of the only constraint, with the target within reach. *)
Theorem C136_tolerance_refuted :
  exists p inf rtl b (lib : library) tmax ans s t,
    plan_ok p inf /\ construct rtl p = Done b /\ honest inf 0 0 lib /\ (forall i, able inf lib i) /\
    optimize_problem inf lib tmax (fun u : unit => u) (fun u => (u, 0)) 1 b tt = Ok (Done (ans, s)) /\ an_status ans = OPT_CONVERGED /\
    In t (pl_cnts p) /\ is_exact (dofs p) t /\ in_term (pl_steps p) (dofs p) t 0 0 /\ coeff (dofs p) t 0 = 1 /\
    Rabs (dev (dofs p) t (traj_at (an_traj ans)) 0 0) = 20 * ocnt_tolerance (plan_params tmax) /\ fst (limits p 0) < target (dofs p) t 0 < snd (limits p 0) /\ pl_fixed_steps p = [] /\ pl_fixed_dofs p = [].
Proof.
  destruct (C133_libraries 100) as (r & _ & _ & (Hr & Ha) & _). destruct (tol_runs _ Hr Ha) as (b & ans & s & tr & Eb & E & St & _ & _ & X0).
  exists ex_tol, 100, true, b, (Osqp 0 false r), 1, ans, s, (Pos, ex_term TT_CNT (2 / 1000) [] 0). split; [exact tol_ok|]. split; [exact Eb|]. split; [exact Hr|]. split; [exact Ha|]. split; [exact E|]. split; [exact St|]. split; [left; reflexivity|]. split; [apply no_tol_exact|]. split; [unfold in_term; cbn; lia|]. split; [reflexivity|].
  destruct (params_values 1) as (_ & _ & _ & -> & _). split; [|cbn; unfold target, at_joint; cbn; split; [lra|split; reflexivity]]. unfold dev, difference. cbn [fst]. rewrite X0. unfold target, at_joint. cbn. unfold Rabs. destruct (Rcase_abs _); lra.
Qed.
Print Assumptions C136_tolerance_refuted.

(** A fixed step may be returned moved, though the initial trajectory is within the limits. *)
Theorem C136_fixed_refuted :
  exists p inf rtl b (lib : library) tmax ans s i j,
    plan_ok p inf /\ construct rtl p = Done b /\ honest inf 0 0 lib /\ (forall i, able inf lib i) /\ obeys p (initial p) /\
    optimize_problem inf lib tmax (fun u : unit => u) (fun u => (u, 0)) 1 b tt = Ok (Done (ans, s)) /\ an_status ans = OPT_CONVERGED /\
    fixed p i j /\ Rabs (traj_at (an_traj ans) i j - initial p i j) = 10 * ocnt_tolerance (plan_params tmax).
Proof.
  destruct (C133_libraries 100) as (r & _ & _ & (Hr & Ha) & _). destruct (built_done 100 ex_fix true fix_ok) as (b & _ & _ & Eb & _).
  assert (S0 : forall i, start_at ex_fix i 0 = 4999 / 1000) by (intros i; unfold start_at; cbn; unfold at_joint; cbn; rewrite Rmin_left; lra).
  assert (I0 : forall i, initial ex_fix i 0 = 5) by reflexivity. assert (D1 : Z.of_nat (dofs ex_fix) = 1%Z) by reflexivity.
  assert (Yo : forall Y, (forall i, Y i 0%Z = 5) -> obeys ex_fix Y).
  { intros Y HY. split; intros i j H.
    - intros Hj. rewrite D1 in Hj. assert (j = 0%Z) as -> by lia. rewrite HY. cbn. lra.
    - destruct H as ((Hi & Hj) & _). rewrite D1 in Hj. assert (j = 0%Z) as -> by lia. rewrite HY, I0. reflexivity. }
  destruct (at_once 100 true ex_fix b (Osqp 0 false r) 1 fix_ok Eb Hr Ha ltac:(lra) ltac:(intros t [<-|[]]; apply ex_bowl) (fun _ _ => 5) [1 / 1000000] [] 0) as (ans & s & tr & E & St & Bx & Tr & Xs).
  - intros i j Hi Hj. rewrite D1 in Hj. assert (j = 0%Z) as -> by lia. rewrite S0. cbn. lra.
  - apply Yo. reflexivity.
  - intros i j Hi Hj. rewrite D1 in Hj. assert (j = 0%Z) as -> by lia. rewrite S0. apply Rabs_le. lra.
  - constructor; [|constructor]. apply cost_is. change (pl_steps ex_fix) with 1%Z. rewrite one_term. unfold coeff, dev, target, difference, at_joint. cbn. lra.
  - constructor.
  - constructor; [|constructor]. apply cost_is. change (pl_steps ex_fix) with 1%Z. rewrite one_term. unfold dev, difference. cbn [fst]. rewrite S0. unfold coeff, target, at_joint. cbn. lra.
  - constructor.
  - rewrite !rsum_cons, !rsum_nil. lra.
  - exists ex_fix, 100, true, b, (Osqp 0 false r), 1, ans, s, 0%Z, 0%Z. split; [exact fix_ok|]. split; [exact Eb|]. split; [exact Hr|]. split; [exact Ha|]. split; [apply Yo; exact I0|]. split; [exact E|]. split; [exact St|].
    split; [split; [cbn; lia|left; left; reflexivity]|]. destruct (params_values 1) as (_ & _ & _ & -> & _). rewrite (Xs 0%Z 0%Z ltac:(cbn; lia) ltac:(cbn; lia)), S0, I0. unfold Rabs. destruct (Rcase_abs _); lra.
Qed.
Print Assumptions C136_fixed_refuted.
