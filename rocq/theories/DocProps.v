(** * From a JSON document to a trajectory (C137) *)
From Coq Require Import ZArith String Ascii List Bool Arith Lia Reals Lra Permutation.
From Verif Require Import Num NumFacts RSums Common JsonModel JsonSpec JsonProofs JsonProps BackendModel SolveModel SolveSpec SolveProps ScoExprModel ModelingModel ScoOptModel RunModel ArrayModel TrajCostModel CollisionModel CollisionProps TrajoptModel HatchProps ConstructProps
  PlanModel PlanSpec PlanProofs PlanProps DocModel DocSpec DocProofs.
From Verif Require PipeModel.
Import ListNotations.
Local Open Scope R_scope.

(** A document about a plan gives the problem of that plan, with the solver createModel picks for the number in it. *)
Theorem C137_constructed :
  forall tz ti tr env var have rtl df m p k o, says_plan env df m p k o ->
    construct_doc tz ti tr env var have rtl df (JObj m) =
    match PipeModel.create_model have var k with
    | PipeModel.Created s => rdo (construct rtl p) (fun b => Done (Problem s b))
    | PipeModel.CreateThrows => Thrown
    | PipeModel.EmptyAccess => Assert
    end.
Proof.
  intros tz ti tr env var have rtl df m p k o (b & a & cs & ns & im & D & SP & Ea & Ek & L & N & Et & Ht & Dg & Dn & P1 & P2 & P3 & P4 & P5 & J1 & J2 & St).
  pose proof SP as (_ & _ & _ & Hc & Hn & _). rewrite <- Dg in St. destruct (doc_read tz ti tr env df m b o _ cs ns im _ _ D SP L St) as (q & Q & Qc & Qn & Qb & Qi & Qd).
  assert (Tc : forall t, In t cs -> uses_time t = false).
  { intros t X. destruct (terms_said 1 _ _ _ _ _ t (or_introl eq_refl) Hc X) as [T0 _]. rewrite Forall_forall in Ht. specialize (Ht t (in_or_app _ _ _ (or_introl X))). unfold uses_time. destruct T0 as [T0|T0]; rewrite T0 in *; [reflexivity|lia]. }
  assert (Tn : forall t, In t ns -> uses_time t = false).
  { intros t X. destruct (terms_said 2 _ _ _ _ _ t (or_intror eq_refl) Hn X) as [T0 _]. rewrite Forall_forall in Ht. specialize (Ht t (in_or_app _ _ _ (or_intror X))). unfold uses_time. destruct T0 as [T0|T0]; rewrite T0 in *; [reflexivity|lia]. }
  assert (none : forall (f : JsonModel.term R -> bool) ts, (forall t, In t ts -> f t = false) -> existsb f ts = false).
  { intros f ts H. destruct (existsb f ts) eqn:E; [|reflexivity]. apply existsb_exists in E as (t & X & E). rewrite (H t X) in E. discriminate. }
  assert (U : existsb uses_time (cs ++ ns) = false) by (apply none; intros t X; apply in_app_or in X as [X|X]; auto).
  unfold construct_doc. rewrite Q. cbn [rdo]. rewrite Qb, U, Et. cbn [with_time b_manip b_time b_solver orb]. rewrite Ea, Qc, Qn, (joint_only_iff _ _ J1), (joint_only_iff _ _ J2).
  assert (Ck : check_time (map info (pl_costs p)) (map info (pl_cnts p)) false = Some tt).
  { unfold check_time. rewrite (check_said TT_COST cs _ (or_introl eq_refl) J1) by (intros t X; apply (terms_said 1 _ _ _ _ _ t (or_introl eq_refl) Hc X)).
    rewrite (check_said TT_CNT ns _ (or_intror eq_refl) J2) by (intros t X; apply (terms_said 2 _ _ _ _ _ t (or_intror eq_refl) Hn X)).
    rewrite !none; [reflexivity|exact Tn|intros t X; rewrite (Tn t X); destruct (t_body t) as [| |[]| |]; reflexivity|exact Tc|intros t X; rewrite (Tc t X); destruct (t_body t) as [| |[]| |]; reflexivity]. }
  rewrite Ck. cbn [lift rdo]. rewrite Ek. replace (plan_of a q (pl_costs p) (pl_cnts p)) with p; [reflexivity|].
  unfold plan_of. rewrite Qb, Qi, Qd. cbn [with_time b_steps b_fixed_timesteps b_fixed_dofs]. rewrite <- P1, <- P2, <- P3, <- P4, <- P5. destruct p; reflexivity.
Qed.
Print Assumptions C137_constructed.

(** No term of the document is dropped: the problem is that of a plan with just the terms read, in order, and all of them are joint terms. *)
Theorem C137_all_terms :
  forall tz ti tr env var have rtl df v s b, construct_doc tz ti tr env var have rtl df v = Done (Problem s b) ->
    exists q a p, read_problem tz ti tr (groups env) df v = Done q /\ env (b_manip (q_basic q)) = Some a /\ construct rtl p = Done b /\
      map t_body (q_costs q) = map (fun t => BJoint (fst t) (snd t)) (pl_costs p) /\ map t_body (q_cnts q) = map (fun t => BJoint (fst t) (snd t)) (pl_cnts p) /\
      pl_limits p = a_limits a /\ pl_now p = a_now a /\ pl_steps p = b_steps (q_basic q).
Proof.
  intros tz ti tr env var have rtl df v s b. unfold construct_doc. destruct (read_problem tz ti tr (groups env) df v) as [q| |]; cbn [rdo]; try discriminate.
  destruct (env (b_manip (q_basic q))) as [a|] eqn:Ea; [|discriminate].
  assert (J : forall ts l, joint_only ts = Some l -> map t_body ts = map (fun t : order * jterm R => BJoint (fst t) (snd t)) l).
  { induction ts as [|t ts IH]; intros l H; cbn [joint_only] in H; [injection H as <-; reflexivity|]. destruct (t_body t) as [| |o j| |] eqn:Et; try discriminate.
    all: destruct (joint_only ts) as [l'|]; try discriminate. injection H as <-. cbn [map fst snd]. rewrite Et, (IH l' eq_refl). reflexivity. }
  destruct (joint_only (q_costs q)) as [cs|] eqn:Ec; [|discriminate]. destruct (joint_only (q_cnts q)) as [ns|] eqn:En; [|discriminate].
  destruct (check_time _ _ _); cbn [lift rdo]; [|discriminate]. destruct (b_time (q_basic q)); [discriminate|]. destruct (PipeModel.create_model have var (b_solver (q_basic q))); try discriminate.
  destruct (construct rtl (plan_of a q cs ns)) as [b'| |] eqn:Eb; cbn [rdo]; try discriminate. intros [= _ <-]. exists q, a, (plan_of a q cs ns). split; [reflexivity|]. split; [exact Ea|]. split; [exact Eb|].
  split; [apply J, Ec|]. split; [apply J, En|]. auto.
Qed.
Print Assumptions C137_all_terms.

(** The plan's initial trajectory is the one described by init_info. *)
Theorem C137_start :
  forall inf env df m p k o im rows dt i j, says_plan env df m p k o -> plan_ok p inf -> In ("init_info"%string, JObj im) m -> says_init (pl_steps p) (pl_now p) im rows dt ->
    (0 <= i < pl_steps p)%Z -> (0 <= j < Z.of_nat (dofs p))%Z -> initial p i j = nth (Z.to_nat j) (nth (Z.to_nat i) rows []) 0.
Proof.
  intros inf env df m p k o im rows dt i j (b & a & cs & ns & im' & D & SP & Ea & Ek & L & N & Et & Ht & Dg & Dn & P1 & P2 & P3 & P4 & P5 & J1 & J2 & St) OK Him SI Hi Hj.
  destruct SP as (_ & _ & _ & _ & _ & Hi' & Di). assert (im' = im) as ->.
  { pose proof (lookup_in _ _ _ D Hi') as A1. pose proof (lookup_in _ _ _ D Him) as A2. congruence. }
  destruct (start_done inf p OK) as (t & E1 & E2 & S1 & S2 & S3 & S4). rewrite <- S4 by assumption.
  destruct (C118_init R _ (fun _ => ""%string) (fun _ => ""%string) (pl_steps p) (pl_now p) im rows dt no_data false Di ltac:(lia) SI) as (i0 & R1 & R2).
  destruct (start_read (fun _ => ""%string) (fun _ => ""%string) _ _ _ _ _ Di St) as (dt' & R3). rewrite P3, Dn, P1, R3 in R1. injection R1 as <-. cbn [i_type i_data i_dt] in R2.
  assert (Eq1 : init_traj (pl_init p) (pl_now p) (pl_data p) (pl_steps p) false dt' = init_traj (pl_init p) (pl_now p) (pl_data p) (pl_steps p) false 0) by reflexivity.
  rewrite Eq1, E1 in R2. injection R2 as ->. unfold entry. cbn [m_rows]. f_equal. rewrite (map_ext _ (fun r => r)) by (intros; apply app_nil_r). rewrite map_id. reflexivity.
Qed.
Print Assumptions C137_start.

(** End to end.  A document about a plan that makes sense is accepted if createModel has a library for it (other than Gurobi); optimizing the problem ends, and the trajectory returned
    has the size asked for, is within the joint limits and at the initial values where fixed (up to the tolerance of the solver) unless no step was
    taken, and comes with its costs and violations.  If it is said to have converged, every constraint in the document holds up to 1/10000. *)
Theorem C137_solved :
  forall (C : Type) inf eps delta (lib : library) tmax (callback : C -> C) clock rtl tz ti tr env var have df m p k o c,
    says_plan env df m p k o -> plan_ok p inf -> PipeModel.create_model have var k = PipeModel.Created (PipeModel.kind_value (kind_of lib)) ->
    RunSpec.honest inf eps delta lib -> (forall c, snd (clock c) <= tmax) ->
    exists b, construct_doc tz ti tr env var have rtl df (JObj m) = Done (Problem (PipeModel.kind_value (kind_of lib)) b) /\
    exists K ans s, (forall fuel, (K <= fuel)%nat -> optimize_problem inf lib tmax callback clock fuel b c = Ok (Done (ans, s))) /\
      let X := traj_at (an_traj ans) in
      Z.of_nat (length (an_traj ans)) = pl_steps p /\ Forall (fun r => length r = dofs p) (an_traj ans) /\
      (PlanSpec.within p inf eps X \/ forall i j, (0 <= i < pl_steps p)%Z -> (0 <= j < Z.of_nat (dofs p))%Z -> X i j = Rmin (snd (limits p j) - 1 / 1000) (initial p i j)) /\
      Forall2 (fun t v => term_cost (pl_steps p) (dofs p) t X v) (pl_costs p) (an_costs ans) /\
      (exists ts, Permutation ts (pl_cnts p) /\ Forall2 (fun t v => term_viol (pl_steps p) (dofs p) t X v) ts (an_viols ans)) /\
      (an_status ans = OPT_CONVERGED -> Forall (fun v => v < 1 / 10000) (an_viols ans) /\
       forall t i j, In t (pl_cnts p) -> in_term (pl_steps p) (dofs p) t i j ->
         (is_exact (dofs p) t -> Rabs (coeff (dofs p) t j) * (dev (dofs p) t X i j * dev (dofs p) t X i j) < 1 / 10000) /\
         (~ is_exact (dofs p) t -> coeff (dofs p) t j * (dev (dofs p) t X i j - upper (dofs p) t j) < 1 / 10000 /\
                                   coeff (dofs p) t j * (lower (dofs p) t j - dev (dofs p) t X i j) < 1 / 10000)).
Proof.
  intros C inf eps delta lib tmax callback clock rtl tz ti tr env var have df m p k o c SP OK Ck HR Hclk.
  destruct (C136_built inf p rtl OK) as (b & Eb & _). exists b. split; [rewrite (C137_constructed tz ti tr env var have rtl df m p k o SP), Ck, Eb; reflexivity|].
  destruct (C136_ends C inf eps delta lib tmax callback clock rtl p b c OK Eb HR) as (_ & K & [ans s] & H). exists K, ans, s. split; [exact H|]. specialize (H K (le_n K)). cbn zeta.
  destruct (C136_limits C inf eps delta lib tmax callback clock rtl p b c K ans s OK Eb HR H) as (A1 & A2 & A3).
  destruct (C136_reported C inf eps delta lib tmax callback clock rtl p b c K ans s OK Eb HR Hclk H) as (B1 & (eqs & ineqs & B2 & _ & _ & B3) & B4).
  split; [exact A1|]. split; [exact A2|]. split; [exact A3|]. split; [exact B1|]. split; [exists (eqs ++ ineqs); split; assumption|]. intros Es. split; [apply B4, Es|].
  intros t i j Ht Hij. exact (C136_converged C inf eps delta lib tmax callback clock rtl p b c K ans s OK Eb HR Hclk H Es t i j Ht Hij).
Qed.
Print Assumptions C137_solved.

(** Documents of joint terms that disagree with themselves on time are refused: basic_info uses time but no term does, or a term on
    accelerations or jerks does, which cannot. *)
Theorem C137_time :
  forall tz ti tr env var have rtl df m b o a cs ns im i d lc ln,
    distinct m -> says_problem (groups env) df m b o (a_group a) cs ns im -> env (b_manip b) = Some a -> 0 < b_dt_lower b <= b_dt_upper b ->
    joint_terms cs lc -> joint_terms ns ln -> says_start (g_dof (a_group a)) (b_steps b) im i d ->
    (b_time b = true /\ Forall (fun t => (t_type t < 4)%Z) (cs ++ ns)) \/
    (exists t q, In t (cs ++ ns) /\ (4 <= t_type t)%Z /\ (t_body t = BJoint Acc q \/ t_body t = BJoint Jerk q)) ->
    construct_doc tz ti tr env var have rtl df (JObj m) = Thrown.
Proof.
  intros tz ti tr env var have rtl df m b o a cs ns im i d lc ln D SP Ea L J1 J2 St H.
  pose proof SP as (_ & _ & _ & Hc & Hn & _). destruct (doc_read tz ti tr env df m b o _ cs ns im _ _ D SP L St) as (q & Q & Qc & Qn & Qb & Qi & Qd).
  pose proof (fun t X => terms_said 1 _ _ _ _ _ t (or_introl eq_refl) Hc X) as Sc. pose proof (fun t X => terms_said 2 _ _ _ _ _ t (or_intror eq_refl) Hn X) as Sn.
  unfold construct_doc. rewrite Q. cbn [rdo]. rewrite Qb. cbn [with_time b_manip b_time]. rewrite Ea, Qc, Qn, (joint_only_iff _ _ J1), (joint_only_iff _ _ J2).
  unfold check_time. rewrite (check_said TT_COST cs _ (or_introl eq_refl) J1 Sc), (check_said TT_CNT ns _ (or_intror eq_refl) J2 Sn).
  assert (Ut : forall t, In t (cs ++ ns) -> uses_time t = (4 <=? t_type t)%Z).
  { intros t X. unfold uses_time. apply in_app_or in X as [X|X]; [destruct (Sc t X) as [[-> | ->] _]|destruct (Sn t X) as [[-> | ->] _]]; reflexivity. }
  set (f := fun t : JsonModel.term R => match t_body t with BJoint Acc _ | BJoint Jerk _ => uses_time t | _ => false end).
  destruct H as [[Et Ht]|(t & u & X & T4 & Bt)].
  - assert (none : forall (g : JsonModel.term R -> bool) ts, (forall t, In t ts -> g t = false) -> existsb g ts = false).
    { intros g ts H. destruct (existsb g ts) eqn:E; [|reflexivity]. apply existsb_exists in E as (t & X & E). rewrite (H t X) in E. discriminate. }
    assert (U : forall t, In t (cs ++ ns) -> uses_time t = false) by (intros t X; rewrite (Ut t X); apply Z.leb_gt; rewrite Forall_forall in Ht; apply Ht, X).
    assert (F : forall t, In t (cs ++ ns) -> f t = false) by (intros t X; unfold f; rewrite (U t X); destruct (t_body t) as [| |[]| |]; reflexivity).
    rewrite !(none f), !(none uses_time), Et by (intros t X; first [apply U | apply F]; first [exact X | apply in_or_app; left; exact X | apply in_or_app; right; exact X]). reflexivity.
  - assert (Ft : f t = true) by (unfold f; assert (uses_time t = true) by (rewrite (Ut t X); apply Z.leb_le, T4); destruct Bt as [-> | ->]; assumption).
    apply in_app_or in X as [X|X].
    + replace (existsb f cs) with true by (symmetry; apply existsb_exists; exists t; auto). reflexivity.
    + replace (existsb f ns) with true by (symmetry; apply existsb_exists; exists t; auto). destruct (existsb f cs); reflexivity.
Qed.
Print Assumptions C137_time.

(** ** Examples: the documents of the plans [ex_two] and [ex_tol] *)
Definition ex_params (target : R) (tol : list R) (first : Z) : list (string * json R) :=
  [("targets", JArr [JReal target]); ("coeffs", JArr []); ("upper_tols", JArr (map JReal tol)); ("lower_tols", JArr (map JReal (map Ropp tol)));
   ("first_step", JInt first); ("last_step", JInt (-1))]%string.
Definition ex_json (ty : string) (target : R) (tol : list R) (first : Z) : json R := JObj [("type", JStr ty); ("params", JObj (ex_params target tol first))]%string.
Definition ex_document (n : Z) (fixed : list Z) (opt : list (string * json R)) (costs cnts : list (json R)) : list (string * json R) :=
  [("basic_info", JObj [("n_steps", JInt n); ("manip", JStr "arm"); ("fixed_timesteps", JArr (map JInt fixed))]); ("opt_info", JObj opt);
   ("costs", JArr costs); ("constraints", JArr cnts); ("init_info", JObj [("type", JStr "Stationary")])]%string.
Definition ex_arm (lim now : R) : arm := {| a_group := {| g_dof := 1; g_has := fun _ => true; g_active := fun _ => true |}; a_limits := [(- lim, lim)]; a_now := [now] |}.
Definition ex_env (a : arm) (s : string) : option arm := if String.eqb s "arm" then Some a else None.

Lemma ex_says_term kind n g ty o target tol first : In (ty, o) [("joint_pos", Pos); ("joint_vel", Vel)]%string -> (kind = 1%Z \/ kind = 2%Z) -> (0 <= first < 10)%Z ->
  says_term kind n g (ex_json ty target tol first) {| t_name := ty; t_type := (kind + 0)%Z; t_body := BJoint o (PlanProps.ex_term kind target tol first) |}.
Proof.
  intros Ho Hk Hf. assert (J : says_joint o (kind + 0)%Z n (g_dof g) (ex_params target tol first) (PlanProps.ex_term kind target tol first)).
  { assert (Nums : forall l : list R, is_list is_num (JArr (map JReal l)) l) by (intros l; constructor; induction l; constructor; [constructor|assumption]).
    split; [intros s Hs; destruct o; cbn in Hs; cbn; tauto|]. split; [cbn; lia|]. cbn [PlanProps.ex_term jt_targets jt_coeffs jt_uppers jt_lowers jt_first jt_last].
    split; [exists (JArr [JReal target]); split; [cbn; auto|apply (Nums [target])]|].
    split; [right; exists (JArr []); split; [cbn; auto|apply (Nums [])]|].
    split; [right; exists (JArr (map JReal tol)); split; [cbn; auto|apply Nums]|].
    split; [right; exists (JArr (map JReal (map Ropp tol))); split; [cbn; auto|apply Nums]|].
    split; right; eexists; (split; [cbn; auto 8|]); constructor; lia. }
  apply (says_term_ kind n g [("type", JStr ty); ("params", JObj (ex_params target tol first))]%string ty false (ex_params target tol first) _ ty).
  - nodup.
  - exists (JStr ty). split; [left; reflexivity|constructor].
  - absent.
  - right. left. reflexivity.
  - nodup.
  - destruct Ho as [[= <- <-]|[[= <- <-]|[]]]; constructor; exact J.
  - absent.
Qed.
Lemma ex_says (df o : params R) n lim now fixed opt costs cnts jc jn : (1 <= n < 10)%Z -> Forall (fun t => 0 <= t < 10)%Z fixed -> distinct opt -> says_opt df opt o ->
  Forall2 (fun j u => exists ty target tol first, In (ty, fst u) [("joint_pos", Pos); ("joint_vel", Vel)]%string /\ j = ex_json ty target tol first /\ snd u = PlanProps.ex_term 1 target tol first /\ (0 <= first < 10)%Z) jc costs ->
  Forall2 (fun j u => exists ty target tol first, In (ty, fst u) [("joint_pos", Pos); ("joint_vel", Vel)]%string /\ j = ex_json ty target tol first /\ snd u = PlanProps.ex_term 2 target tol first /\ (0 <= first < 10)%Z) jn cnts ->
  says_plan (ex_env (ex_arm lim now)) df (ex_document n fixed opt jc jn) (ex_plan n lim now fixed costs cnts) 4 o.
Proof.
  intros Hn Hfx Do So Fc Fn. set (g := a_group (ex_arm lim now)).
  assert (T : forall kind js us, (kind = 1%Z \/ kind = 2%Z) ->
    Forall2 (fun j u => exists ty target tol first, In (ty, fst u) [("joint_pos", Pos); ("joint_vel", Vel)]%string /\ j = ex_json ty target tol first /\ snd u = PlanProps.ex_term kind target tol first /\ (0 <= first < 10)%Z) js us ->
    exists ts, Forall2 (says_term kind n g) js ts /\ joint_terms ts us /\ Forall (fun t => (t_type t < 4)%Z) ts).
  { intros kind js us Hk F. induction F as [|j [o' u] js us (ty & tg & tol & first & Ho & -> & Eu & Hf) F (ts & I1 & I2 & I3)]; [exists []; repeat constructor|]. cbn [fst snd] in *. subst u.
    eexists (_ :: ts). split; [constructor; [apply ex_says_term; eassumption|exact I1]|]. split; [constructor; [reflexivity|exact I2]|]. constructor; [cbn; lia|exact I3]. }
  destruct (T 1%Z jc costs (or_introl eq_refl) Fc) as (cs & C1 & C2 & C3). destruct (T 2%Z jn cnts (or_intror eq_refl) Fn) as (ns & N1 & N2 & N3).
  exists {| b_steps := n; b_manip := "arm"%string; b_fixed_timesteps := fixed; b_fixed_dofs := []; b_solver := 4; b_dt_lower := 1; b_dt_upper := 1; b_time := false |}, (ex_arm lim now), cs, ns, [("type", JStr "Stationary")]%string.
  split; [nodup|]. split.
  { split; [|split; [|split; [reflexivity|split; [|split; [|split]]]]].
    - eexists. split; [cbn; auto|]. eexists. split; [reflexivity|]. split; [nodup|]. unfold says_basic. cbn [b_steps b_manip b_fixed_timesteps b_fixed_dofs b_solver b_dt_lower b_dt_upper b_time].
      split; [eexists; split; [left; reflexivity|constructor; lia]|]. split; [eexists; split; [right; left; reflexivity|constructor]|].
      split; [right; eexists; split; [right; right; left; reflexivity|constructor; induction Hfx; constructor; [constructor; lia|assumption]]|]. repeat (split; [absent|]). absent.
    - right. eexists. split; [right; left; reflexivity|]. exists opt. split; [reflexivity|split; assumption].
    - right. eexists. split; [right; right; left; reflexivity|]. constructor. exact C1.
    - right. eexists. split; [right; right; right; left; reflexivity|]. constructor. exact N1.
    - cbn. auto 8.
    - nodup. }
  split; [reflexivity|]. split; [reflexivity|]. cbn [b_dt_lower b_dt_upper b_steps b_time b_fixed_timesteps b_fixed_dofs]. split; [lra|]. split; [lia|]. split; [reflexivity|]. split; [apply Forall_app; split; assumption|].
  split; [reflexivity|]. split; [reflexivity|]. split; [reflexivity|]. split; [reflexivity|]. split; [reflexivity|]. split; [reflexivity|]. split; [reflexivity|]. split; [exact C2|]. split; [exact N2|].
  cbn [ex_plan pl_init pl_data]. apply (start_stationary _ _ _ "Stationary"%string 1).
  - exists (JStr "Stationary"%string). split; [left; reflexivity|constructor].
  - apply (word_upper "s"%char); [cbn; lia|]. repeat apply word_same. constructor.
  - absent.
Qed.

Example C137_ex : forall df : params R, exists m p o,
  says_plan (ex_env (ex_arm 1 (5 / 1000))) df m p 4 o /\ plan_ok p 100 /\ PipeModel.create_model (fun k => (k =? 1)%nat) None 4 = PipeModel.Created (PipeModel.kind_value PipeModel.OSQP) /\
  pl_costs p <> [] /\ pl_cnts p <> [] /\ pl_fixed_steps p <> [].
Proof.
  intros df. exists (ex_document 2 [0%Z] [] [ex_json "joint_pos" 0 [] 1] [ex_json "joint_vel" 0 [1 / 10] 0]), ex_two, df. split.
  - apply ex_says; [lia|constructor; [lia|constructor]|constructor| | |].
    + unfold says_opt. repeat (split; [left; split; [exact (fun f => f)|reflexivity]|]). reflexivity.
    + constructor; [|constructor]. exists "joint_pos"%string, 0, [], 1%Z. split; [left; reflexivity|]. split; [reflexivity|]. split; [reflexivity|lia].
    + constructor; [|constructor]. exists "joint_vel"%string, 0, [1 / 10], 0%Z. split; [right; left; reflexivity|]. split; [reflexivity|]. split; [reflexivity|lia].
  - split; [exact two_ok|]. split; [reflexivity|]. split; [discriminate|]. split; discriminate.
Qed.

Example C137_all_terms_ex : forall tz ti tr (df : params R), exists m s b,
  construct_doc tz ti tr (ex_env (ex_arm 1 (5 / 1000))) None (fun k => (k =? 1)%nat) true df (JObj m) = Done (Problem s b).
Proof.
  intros tz ti tr df. destruct (C137_ex df) as (m & p & o & S & OK & M & _). destruct (C136_built 100 p true OK) as (b & E & _). exists m. do 2 eexists.
  rewrite (C137_constructed tz ti tr _ None (fun k => (k =? 1)%nat) true df m p 4 o S), M, E. reflexivity.
Qed.

(** a document that uses time without a term that does *)
Definition ex_timed : list (string * json R) :=
  [("basic_info", JObj [("n_steps", JInt 2); ("manip", JStr "arm"); ("use_time", JBool true)]); ("constraints", JArr [ex_json "joint_pos" 0 [] 1]); ("init_info", JObj [("type", JStr "Stationary")])]%string.
Example C137_time_ex : forall df : params R, exists b cs ns im i d lc ln,
  distinct ex_timed /\ says_problem (groups (ex_env (ex_arm 1 0))) df ex_timed b df (a_group (ex_arm 1 0)) cs ns im /\ ex_env (ex_arm 1 0) (b_manip b) = Some (ex_arm 1 0) /\ 0 < b_dt_lower b <= b_dt_upper b /\
  joint_terms cs lc /\ joint_terms ns ln /\ says_start (g_dof (a_group (ex_arm 1 0))) (b_steps b) im i d /\ b_time b = true /\ Forall (fun t => (t_type t < 4)%Z) (cs ++ ns) /\ ns <> [].
Proof.
  intros df. exists {| b_steps := 2; b_manip := "arm"%string; b_fixed_timesteps := []; b_fixed_dofs := []; b_solver := 4; b_dt_lower := 1; b_dt_upper := 1; b_time := true |}, [].
  eexists [_], [("type", JStr "Stationary")]%string, _, _, [], [(Pos, PlanProps.ex_term 2 0 [] 1)]. split; [nodup|]. split.
  { split; [|split; [|split; [reflexivity|split; [|split; [|split]]]]].
    - eexists. split; [left; reflexivity|]. eexists. split; [reflexivity|]. split; [nodup|]. unfold says_basic. cbn [b_steps b_manip b_fixed_timesteps b_fixed_dofs b_solver b_dt_lower b_dt_upper b_time].
      split; [eexists; split; [left; reflexivity|constructor; lia]|]. split; [eexists; split; [right; left; reflexivity|constructor]|].
      repeat (split; [absent|]). right. eexists. split; [right; right; left; reflexivity|constructor].
    - absent.
    - absent.
    - right. eexists. split; [right; left; reflexivity|]. constructor. constructor; [|constructor]. apply (ex_says_term 2 2 _ "joint_pos" Pos 0 [] 1); [left; reflexivity|right; reflexivity|lia].
    - cbn. auto 8.
    - nodup. }
  split; [reflexivity|]. split; [cbn; lra|]. split; [constructor|]. split; [constructor; [reflexivity|constructor]|]. split.
  - apply (start_stationary _ _ _ "Stationary"%string 1).
    + exists (JStr "Stationary"%string). split; [left; reflexivity|constructor].
    + apply (word_upper "s"%char); [cbn; lia|]. repeat apply word_same. constructor.
    + absent.
  - split; [reflexivity|]. split; [constructor; [cbn; lia|constructor]|discriminate].
Qed.

(** cnt_tolerance of opt_info is not obeyed: a run that is said to have converged may violate a constraint by more. *)
Theorem C137_opt_refuted : forall tz ti tr (df : params R), exists env have m p o b (solver : nat -> osqp_run R) tmax ans s,
  says_plan env df m p 4 o /\ plan_ok p 100 /\ p_cnt_tolerance o = 1 / 1000000 /\
  construct_doc tz ti tr env None have true df (JObj m) = Done (Problem (PipeModel.kind_value PipeModel.OSQP) b) /\ (forall i, osqp_honest 100 0 0 (solver i) /\ osqp_able 100 (solver i)) /\
  optimize_problem 100 (Osqp 0 false solver) tmax (fun u : unit => u) (fun u => (u, 0)) 1 b tt = Ok (Done (ans, s)) /\ an_status ans = OPT_CONVERGED /\
  an_viols ans = [4 * p_cnt_tolerance o].
Proof.
  intros tz ti tr df. destruct (RunProps.C133_libraries 100) as (r & _ & _ & (Hr & Ha) & _). destruct (tol_runs _ Hr Ha) as (b & ans & s & t & Eb & E & St & _ & _ & X0).
  set (o := {| p_improve_ratio_threshold := p_improve_ratio_threshold df; p_min_trust_box_size := p_min_trust_box_size df; p_min_approx_improve := p_min_approx_improve df;
               p_min_approx_improve_frac := p_min_approx_improve_frac df; p_max_iter := p_max_iter df; p_trust_shrink_ratio := p_trust_shrink_ratio df;
               p_trust_expand_ratio := p_trust_expand_ratio df; p_cnt_tolerance := 1 / 1000000;
               p_max_merit_coeff_increases := p_max_merit_coeff_increases df; p_max_qp_solver_failures := p_max_qp_solver_failures df;
               p_merit_coeff_increase_ratio := p_merit_coeff_increase_ratio df; p_max_time := p_max_time df;
               p_initial_merit_error_coeff := p_initial_merit_error_coeff df; p_inflate_individually := p_inflate_individually df; p_trust_box_size := p_trust_box_size df |}).
  set (doc := ex_document 1 [] [("cnt_tolerance"%string, JReal (1 / 1000000))] [] [ex_json "joint_pos" (2 / 1000) [] 0]).
  assert (SP : says_plan (ex_env (ex_arm 1 0)) df doc ex_tol 4 o).
  { apply ex_says; [lia|constructor|nodup| |constructor|].
    - unfold says_opt, o. cbn [p_improve_ratio_threshold p_min_trust_box_size p_min_approx_improve p_min_approx_improve_frac p_max_iter p_trust_shrink_ratio p_trust_expand_ratio p_cnt_tolerance
        p_max_merit_coeff_increases p_max_qp_solver_failures p_merit_coeff_increase_ratio p_max_time p_initial_merit_error_coeff p_inflate_individually p_trust_box_size].
      repeat (split; [first [absent|right; eexists; split; [left; reflexivity|constructor]]|]). reflexivity.
    - constructor; [|constructor]. exists "joint_pos"%string, (2 / 1000), [], 0%Z. split; [left; reflexivity|]. split; [reflexivity|]. split; [reflexivity|lia]. }
  exists (ex_env (ex_arm 1 0)), (fun k => (k =? 1)%nat), doc, ex_tol, o, b, r, 1, ans, s.
  split; [exact SP|]. split; [exact tol_ok|]. split; [reflexivity|]. split; [rewrite (C137_constructed tz ti tr _ None (fun k => (k =? 1)%nat) true df doc ex_tol 4 o SP), Eb; reflexivity|].
  split; [intros i; split; [apply Hr|apply Ha]|]. split; [exact E|]. split; [exact St|].
  destruct (C136_reported unit 100 0 0 (Osqp 0 false r) 1 (fun u => u) (fun u => (u, 0)) true ex_tol b tt 1%nat ans s tol_ok Eb Hr ltac:(intros; cbn; lra) E) as (_ & (eqs & ineqs & P & _ & _ & F) & _).
  apply Permutation_sym, Permutation_length_1_inv in P. rewrite P in F. inversion F as [|? v ? vs V F' Ev El]. inversion F'. subst. f_equal. destruct V as [V _]. rewrite (V (no_tol_exact _ _ _ _)).
  change (pl_steps ex_tol) with 1%Z. change (dofs ex_tol) with 1%nat. rewrite one_term. unfold dev, TrajCostProps.difference. cbn [fst]. rewrite X0. unfold coeff, target, TrajCostProps.at_joint. cbn. rewrite Rabs_right; lra.
Qed.
Print Assumptions C137_opt_refuted.
