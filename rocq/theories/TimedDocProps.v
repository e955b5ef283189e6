(** * From a JSON document to a trajectory with time (C140) *)
From Coq Require Import ZArith String Ascii List Bool Arith Lia Reals Lra Permutation.
From Verif Require Import Num NumFacts RSums Common JsonModel JsonSpec JsonProofs JsonProps BackendModel SolveModel SolveSpec SolveProps ScoExprModel ModelingModel ScoOptModel RunModel ArrayModel TrajCostModel CollisionModel CollisionProps TrajoptModel HatchProps ConstructProps
  PlanModel PlanSpec PlanProofs PlanProps DocModel DocSpec DocProofs DocProps TimedModel TimedSpec TimedProofs TimedProps TimedDocModel TimedDocSpec TimedDocProofs.
From Verif Require PipeModel RunProps.
Import ListNotations.
Local Open Scope R_scope.

(** A document about a timed plan gives the problem of that plan, with the solver createModel picks for the number in it; basic_info need
    not say that time is used. *)
Theorem C140_constructed :
  forall tz ti tr env var have rtl df m p k o, says_tplan env df m p k o ->
    construct_tdoc tz ti tr env var have rtl df (JObj m) =
    match PipeModel.create_model have var k with
    | PipeModel.Created s => rdo (tconstruct rtl p) (fun b => Done (TProblem s b))
    | PipeModel.CreateThrows => Thrown
    | PipeModel.EmptyAccess => Assert
    end.
Proof.
  intros tz ti tr env var have rtl df m p k o (b & a & cs & ns & im & D & SP & Ea & Ek & L & N & (t & Ht & T4) & Hq & Dg & Dn & P1 & P2 & P3 & P4 & P5 & P6 & P7 & J1 & J2 & St & Sd).
  pose proof SP as (_ & _ & _ & Hc & Hn & _). rewrite <- Dg in St. rewrite P6, P7 in L. destruct (tdoc_read tz ti tr env df m b o _ cs ns im _ _ _ D SP L St Sd) as (q & Q & Qc & Qn & Qb & Qi).
  pose proof (fun t X => terms_said 1 _ _ _ _ _ t (or_introl eq_refl) Hc X) as Sc. pose proof (fun t X => terms_said 2 _ _ _ _ _ t (or_intror eq_refl) Hn X) as Sn.
  assert (Ut : forall t, In t (cs ++ ns) -> JsonModel.uses_time t = (4 <=? t_type t)%Z).
  { intros t' X. unfold JsonModel.uses_time. apply in_app_or in X as [X|X]; [destruct (Sc t' X) as [[-> | ->] _]|destruct (Sn t' X) as [[-> | ->] _]]; reflexivity. }
  assert (U : existsb JsonModel.uses_time (cs ++ ns) = true) by (apply existsb_exists; exists t; split; [exact Ht|rewrite (Ut t Ht); apply Z.leb_le, T4]).
  assert (Fn : forall t, In t (cs ++ ns) -> match t_body t with BJoint Acc _ | BJoint Jerk _ => JsonModel.uses_time t | _ => false end = false).
  { intros u X. destruct (t_body u) as [| |o' q'| |] eqn:E; try reflexivity. destruct (JsonModel.uses_time u) eqn:E4; [|destruct o'; reflexivity]. rewrite (Ut u X) in E4. apply Z.leb_le in E4. destruct (Hq u o' q' X E4 E) as [-> | ->]; reflexivity. }
  unfold construct_tdoc. rewrite Q. cbn [rdo]. rewrite Qb, U, orb_true_r. cbn [with_time b_manip b_time b_solver]. rewrite Ea, Qc, Qn, (proj2 (tterms_of_iff _ _) J1), (proj2 (tterms_of_iff _ _) J2).
  assert (Ck : check_time (map tinfo_of (tp_costs p)) (map tinfo_of (tp_cnts p)) true = Some tt).
  { unfold check_time. rewrite (tcheck_said TT_COST cs _ (or_introl eq_refl) J1 Sc), (tcheck_said TT_CNT ns _ (or_intror eq_refl) J2 Sn).
    rewrite !(none_of (fun t => match t_body t with BJoint Acc _ | BJoint Jerk _ => _ | _ => _ end)) by (intros u X; apply Fn, in_or_app; auto).
    rewrite existsb_app in U. destruct (existsb JsonModel.uses_time cs), (existsb JsonModel.uses_time ns); try discriminate; reflexivity. }
  rewrite Ck. cbn [lift rdo]. rewrite Ek. replace (tplan_of a q (tp_costs p) (tp_cnts p)) with p; [reflexivity|].
  unfold tplan_of. rewrite Qb, Qi. cbn [with_time b_steps b_fixed_timesteps b_fixed_dofs b_dt_lower b_dt_upper i_type i_data i_dt]. rewrite <- P1, <- P2, <- P3, <- P4, <- P5, <- P6, <- P7. destruct p; reflexivity.
Qed.
Print Assumptions C140_constructed.

(** No term of the document is dropped: the problem is that of a plan with just the terms read, in order. *)
Theorem C140_all_terms :
  forall tz ti tr env var have rtl df v s b, construct_tdoc tz ti tr env var have rtl df v = Done (TProblem s b) ->
    exists q a p, read_problem tz ti tr (groups env) df v = Done q /\ env (b_manip (q_basic q)) = Some a /\ b_time (q_basic q) = true /\ tconstruct rtl p = Done b /\
      map t_body (q_costs q) = map (fun t => match t with TJoint t => BJoint (fst t) (snd t) | TTotal _ c l => BTime c l end) (tp_costs p) /\
      map t_body (q_cnts q) = map (fun t => match t with TJoint t => BJoint (fst t) (snd t) | TTotal _ c l => BTime c l end) (tp_cnts p) /\
      tp_limits p = a_limits a /\ tp_now p = a_now a /\ tp_steps p = b_steps (q_basic q) /\ tp_dt_lower p = b_dt_lower (q_basic q) /\ tp_dt_upper p = b_dt_upper (q_basic q).
Proof.
  intros tz ti tr env var have rtl df v s b. unfold construct_tdoc. destruct (read_problem tz ti tr (groups env) df v) as [q| |]; cbn [rdo]; try discriminate.
  destruct (env (b_manip (q_basic q))) as [a|] eqn:Ea; [|discriminate].
  assert (J : forall ts l, tterms_of ts = Some l -> map t_body ts = map (fun t => match t with TJoint t => BJoint (fst t) (snd t) | TTotal _ c l => BTime c l end) l).
  { intros ts l H. apply tterms_of_iff in H. induction H as [|t u ts l H F IH]; [reflexivity|]. cbn [map]. rewrite IH. f_equal. destruct u as [[o p]|ty c l0]; [exact H|apply H]. }
  destruct (tterms_of (q_costs q)) as [cs|] eqn:Ec; [|discriminate]. destruct (tterms_of (q_cnts q)) as [ns|] eqn:En; [|discriminate].
  destruct (check_time _ _ _); cbn [lift rdo]; [|discriminate]. destruct (b_time (q_basic q)) eqn:Et; [|discriminate]. destruct (PipeModel.create_model have var (b_solver (q_basic q))); try discriminate.
  destruct (tconstruct rtl (tplan_of a q cs ns)) as [b'| |] eqn:Eb; cbn [rdo]; try discriminate. intros [= _ <-]. exists q, a, (tplan_of a q cs ns). split; [reflexivity|]. split; [exact Ea|]. split; [exact Et|]. split; [exact Eb|].
  split; [apply J, Ec|]. split; [apply J, En|]. auto.
Qed.
Print Assumptions C140_all_terms.

(** The plan's initial trajectory is the one described by init_info, with its dt as the inverse of each time step. *)
Theorem C140_start :
  forall inf eps big quick least env df m p k o im rows dt i j, says_tplan env df m p k o -> tplan_ok p inf eps big quick least ->
    In ("init_info"%string, JObj im) m -> says_init (tp_steps p) (tp_now p) im rows dt -> (0 <= i < tp_steps p)%Z ->
    ((0 <= j < Z.of_nat (length (tp_limits p)))%Z -> tinitial p i j = nth (Z.to_nat j) (nth (Z.to_nat i) rows []) 0) /\
    tinitial p i (Z.of_nat (length (tp_limits p))) = dt.
Proof.
  intros inf eps big quick least env df m p k o im rows dt i j (b & a & cs & ns & im' & D & SP & Ea & Ek & L & N & (t & Ht & T4) & Hq & Dg & Dn & P1 & P2 & P3 & P4 & P5 & P6 & P7 & J1 & J2 & St & Sd) OK Him SI Hi.
  destruct SP as (_ & _ & _ & _ & _ & Hi' & Di). assert (im' = im) as ->.
  { pose proof (lookup_in _ _ _ D Hi') as A1. pose proof (lookup_in _ _ _ D Him) as A2. congruence. }
  pose proof OK as (Hm & Hd & _ & _ & _ & Ln & In0 & _). destruct (tstart_done p ltac:(lia) Hd Ln In0) as (tj & E1 & E2 & (S1 & S2 & S3 & S4)).
  destruct (C118_init R _ (fun _ => ""%string) (fun _ => ""%string) (tp_steps p) (tp_now p) im rows dt no_data true Di ltac:(lia) SI) as (i0 & R1 & R2).
  pose proof (tstart_read (fun _ => ""%string) (fun _ => ""%string) _ _ _ _ _ _ Di St Sd) as R3. rewrite P1, Ln, R3 in R1. injection R1 as <-. cbn [i_type i_data i_dt] in R2.
  rewrite E1 in R2. injection R2 as ->. cbn [m_rows] in S1, S3. rewrite map_length in S1.
  assert (Er : (Z.to_nat i < length rows)%nat) by lia.
  assert (En : forall j, entry {| m_rows := map (fun r : list R => r ++ [dt]) rows; m_cols := length (tp_now p) + 1 |} i j = nth (Z.to_nat j) (nth (Z.to_nat i) rows [] ++ [dt]) 0).
  { intros j'. unfold entry. cbn [m_rows]. rewrite (nth_indep _ [] ((fun r : list R => r ++ [dt]) [])) by (rewrite map_length; exact Er). rewrite (map_nth (fun r : list R => r ++ [dt])). reflexivity. }
  assert (Lr : length (nth (Z.to_nat i) rows []) = length (tp_limits p)).
  { rewrite Forall_map, Forall_forall in S3. specialize (S3 _ (nth_In rows [] Er)). rewrite app_length in S3. cbn [length] in S3. lia. }
  split.
  - intros Hj. rewrite <- S4 by lia. rewrite En. apply app_nth1. lia.
  - rewrite <- S4 by lia. rewrite En, Nat2Z.id, <- Lr. apply nth_middle.
Qed.
Print Assumptions C140_start.

(** End to end.  A document about a timed plan that makes sense is accepted if createModel has a library for it (other than Gurobi);
    optimizing the problem ends, and the trajectory returned has the size asked for, with the inverse time steps as last column, is
    within the limits of the joints and of the inverse time steps and at the initial values where fixed (up to the tolerance of the
    solver) unless no step was taken, has positive time steps, and comes with its costs and violations.  If it is said to have converged,
    the velocities, the total time and the other joint constraints asked for in the document hold up to 1/10000. *)
Theorem C140_solved :
  forall (C : Type) inf eps delta big quick least (lib : library) tmax (callback : C -> C) clock rtl tz ti tr env var have df m p k o c,
    says_tplan env df m p k o -> tplan_ok p inf eps big quick least -> PipeModel.create_model have var k = PipeModel.Created (PipeModel.kind_value (kind_of lib)) ->
    RunSpec.honest inf eps delta lib -> (forall c, snd (clock c) <= tmax) ->
    exists b, construct_tdoc tz ti tr env var have rtl df (JObj m) = Done (TProblem (PipeModel.kind_value (kind_of lib)) b) /\
    exists K ans s, (forall fuel, (K <= fuel)%nat -> optimize_timed inf lib tmax callback clock fuel b c = Ok (Done (ans, s))) /\
      let n := tp_steps p in let d := length (tp_limits p) in let X := traj_at (an_traj ans) in
      Z.of_nat (length (an_traj ans)) = n /\ Forall (fun r => length r = (d + 1)%nat) (an_traj ans) /\
      (twithin p inf eps X \/ forall i j, (0 <= i < n)%Z -> (0 <= j <= Z.of_nat d)%Z -> X i j = Rmin (snd (tlimits p j) - 1 / 1000) (tinitial p i j)) /\
      (forall i, (0 <= i < n)%Z -> / quick <= step_time d X i <= / least) /\
      Forall2 (fun q v => part_cost n d q X v) (parts d (tp_costs p)) (an_costs ans) /\
      (exists qs, Permutation qs (parts d (tp_cnts p)) /\ Forall2 (fun q v => part_viol n d q X v) qs (an_viols ans)) /\
      (an_status ans = OPT_CONVERGED -> Forall (fun v => v < 1 / 10000) (an_viols ans) /\
       (forall t i j, In (TJoint t) (tp_cnts p) -> fst t = Vel -> has (jt_type (snd t)) TT_USE_TIME = true -> (first_step n t <= i < last_step n t)%Z -> (0 <= j < Z.of_nat d)%Z ->
          let k := coeff d t j in let v := (X (i + 1)%Z j - X i j) / step_time d X (i + 1) - target d t j in
          (is_exact d t -> Rabs k * Rabs (v - upper d t j) < 1 / 10000 /\ Rabs k * Rabs (lower d t j - v) < 1 / 10000) /\
          (~ is_exact d t -> k * (v - upper d t j) < 1 / 10000 /\ k * (lower d t j - v) < 1 / 10000)) /\
       (forall ty k l, In (TTotal ty k l) (tp_cnts p) ->
          let total := bigsum (Z.to_nat (n - 1)) (fun i => step_time d X (Z.of_nat i + 1)) in
          (Rabs l < / 100000 -> Rabs k * Rabs (total - l) < 1 / 10000) /\ (~ Rabs l < / 100000 -> k * (total - l) < 1 / 10000)) /\
       (forall t i j, In (TJoint t) (tp_cnts p) -> fst t <> Vel \/ has (jt_type (snd t)) TT_USE_TIME = false -> in_term n d t i j ->
          let k := coeff d t j in let v := dev d t X i j in
          (is_exact d t -> Rabs k * (v * v) < 1 / 10000) /\ (~ is_exact d t -> k * (v - upper d t j) < 1 / 10000 /\ k * (lower d t j - v) < 1 / 10000))).
Proof.
  intros C inf eps delta big quick least lib tmax callback clock rtl tz ti tr env var have df m p k o c SP OK Ck HR Hclk.
  destruct (C139_built inf eps big quick least p rtl OK) as (b & Eb & _). exists b. split; [rewrite (C140_constructed tz ti tr env var have rtl df m p k o SP), Ck, Eb; reflexivity|].
  destruct (C139_ends C inf eps delta big quick least lib tmax callback clock rtl p b c OK Eb HR) as (_ & K & [ans s] & H). exists K, ans, s. split; [exact H|]. specialize (H K (le_n K)). cbn zeta.
  destruct (C139_limits C inf eps delta big quick least lib tmax callback clock rtl p b c K ans s OK Eb HR H) as (A1 & A2 & A3 & A4).
  destruct (C139_reported C inf eps delta big quick least lib tmax callback clock rtl p b c K ans s OK Eb HR Hclk H) as (B1 & (eqs & ineqs & B2 & _ & _ & B3) & B4).
  split; [exact A1|]. split; [exact A2|]. split; [exact A3|]. split; [exact A4|]. split; [exact B1|]. split; [exists (eqs ++ ineqs); split; assumption|]. intros Es. split; [apply B4, Es|].
  destruct (C139_converged C inf eps delta big quick least lib tmax callback clock rtl p b c K ans s OK Eb HR Hclk H Es) as (V1 & V2 & V3). cbn zeta in V1, V2. split; [|split; [|exact V3]].
  - intros t i j Ht Vt Hu Hi Hj. pose proof (V1 t i j Ht Vt Hu Hi Hj) as V. unfold Rdiv in V |- *. rewrite Rmult_1_l in V. exact V.
  - intros ty k' l Ht. pose proof (V2 ty k' l Ht) as V. unfold step_time.
    erewrite bigsum_ext; [exact V|]. intros. cbv beta. unfold Rdiv. rewrite Rmult_1_l. reflexivity.
Qed.
Print Assumptions C140_solved.

(** Documents of joint and total time terms that disagree with themselves on time are refused: basic_info uses time but no term does, or
    a term on accelerations or jerks does, which cannot. *)
Theorem C140_time :
  forall tz ti tr env var have rtl df m b o a cs ns im i d dt lc ln,
    distinct m -> says_problem (groups env) df m b o (a_group a) cs ns im -> env (b_manip b) = Some a -> 0 < b_dt_lower b <= b_dt_upper b ->
    timed_terms cs lc -> timed_terms ns ln -> says_start (g_dof (a_group a)) (b_steps b) im i d -> states_or im "dt" is_num 1 dt ->
    (b_time b = true /\ Forall (fun t => (t_type t < 4)%Z) (cs ++ ns)) \/
    (exists t q, In t (cs ++ ns) /\ (4 <= t_type t)%Z /\ (t_body t = BJoint Acc q \/ t_body t = BJoint Jerk q)) ->
    construct_tdoc tz ti tr env var have rtl df (JObj m) = Thrown.
Proof.
  intros tz ti tr env var have rtl df m b o a cs ns im i d dt lc ln D SP Ea L J1 J2 St Sd H.
  pose proof SP as (_ & _ & _ & Hc & Hn & _). destruct (tdoc_read tz ti tr env df m b o _ cs ns im _ _ _ D SP L St Sd) as (q & Q & Qc & Qn & Qb & Qi).
  pose proof (fun t X => terms_said 1 _ _ _ _ _ t (or_introl eq_refl) Hc X) as Sc. pose proof (fun t X => terms_said 2 _ _ _ _ _ t (or_intror eq_refl) Hn X) as Sn.
  unfold construct_tdoc. rewrite Q. cbn [rdo]. rewrite Qb. cbn [with_time b_manip b_time]. rewrite Ea, Qc, Qn, (proj2 (tterms_of_iff _ _) J1), (proj2 (tterms_of_iff _ _) J2).
  unfold check_time. rewrite (tcheck_said TT_COST cs _ (or_introl eq_refl) J1 Sc), (tcheck_said TT_CNT ns _ (or_intror eq_refl) J2 Sn).
  assert (Ut : forall t, In t (cs ++ ns) -> JsonModel.uses_time t = (4 <=? t_type t)%Z).
  { intros t X. unfold JsonModel.uses_time. apply in_app_or in X as [X|X]; [destruct (Sc t X) as [[-> | ->] _]|destruct (Sn t X) as [[-> | ->] _]]; reflexivity. }
  set (f := fun t : JsonModel.term R => match t_body t with BJoint Acc _ | BJoint Jerk _ => JsonModel.uses_time t | _ => false end).
  destruct H as [[Et Ht]|(t & u & X & T4 & Bt)].
  - assert (U : forall t, In t (cs ++ ns) -> JsonModel.uses_time t = false) by (intros t X; rewrite (Ut t X); apply Z.leb_gt; rewrite Forall_forall in Ht; apply Ht, X).
    assert (F : forall t, In t (cs ++ ns) -> f t = false) by (intros t X; unfold f; rewrite (U t X); destruct (t_body t) as [| |[]| |]; reflexivity).
    rewrite !(none_of f), !(none_of JsonModel.uses_time), Et by (intros t X; first [apply U | apply F]; first [exact X | apply in_or_app; left; exact X | apply in_or_app; right; exact X]). reflexivity.
  - assert (Ft : f t = true) by (unfold f; assert (JsonModel.uses_time t = true) by (rewrite (Ut t X); apply Z.leb_le, T4); destruct Bt as [-> | ->]; assumption).
    apply in_app_or in X as [X|X].
    + replace (existsb f cs) with true by (symmetry; apply existsb_exists; exists t; auto). reflexivity.
    + replace (existsb f ns) with true by (symmetry; apply existsb_exists; exists t; auto). destruct (existsb f cs); reflexivity.
Qed.
Print Assumptions C140_time.

(** A document that asks for no time anywhere passes the checks on time; it is not one of those with time. *)
Theorem C140_untimed :
  forall tz ti tr env var have rtl df m b o a cs ns im i d dt lc ln,
    distinct m -> says_problem (groups env) df m b o (a_group a) cs ns im -> env (b_manip b) = Some a -> 0 < b_dt_lower b <= b_dt_upper b ->
    timed_terms cs lc -> timed_terms ns ln -> says_start (g_dof (a_group a)) (b_steps b) im i d -> states_or im "dt" is_num 1 dt ->
    b_time b = false -> Forall (fun t => (t_type t < 4)%Z) (cs ++ ns) ->
    construct_tdoc tz ti tr env var have rtl df (JObj m) = Done TOther.
Proof.
  intros tz ti tr env var have rtl df m b o a cs ns im i d dt lc ln D SP Ea L J1 J2 St Sd Et Ht.
  pose proof SP as (_ & _ & _ & Hc & Hn & _). destruct (tdoc_read tz ti tr env df m b o _ cs ns im _ _ _ D SP L St Sd) as (q & Q & Qc & Qn & Qb & Qi).
  pose proof (fun t X => terms_said 1 _ _ _ _ _ t (or_introl eq_refl) Hc X) as Sc. pose proof (fun t X => terms_said 2 _ _ _ _ _ t (or_intror eq_refl) Hn X) as Sn.
  unfold construct_tdoc. rewrite Q. cbn [rdo]. rewrite Qb. cbn [with_time b_manip b_time]. rewrite Ea, Qc, Qn, (proj2 (tterms_of_iff _ _) J1), (proj2 (tterms_of_iff _ _) J2).
  unfold check_time. rewrite (tcheck_said TT_COST cs _ (or_introl eq_refl) J1 Sc), (tcheck_said TT_CNT ns _ (or_intror eq_refl) J2 Sn).
  assert (Ut : forall t, In t (cs ++ ns) -> JsonModel.uses_time t = (4 <=? t_type t)%Z).
  { intros t X. unfold JsonModel.uses_time. apply in_app_or in X as [X|X]; [destruct (Sc t X) as [[-> | ->] _]|destruct (Sn t X) as [[-> | ->] _]]; reflexivity. }
  set (f := fun t : JsonModel.term R => match t_body t with BJoint Acc _ | BJoint Jerk _ => JsonModel.uses_time t | _ => false end).
  assert (U : forall t, In t (cs ++ ns) -> JsonModel.uses_time t = false) by (intros t X; rewrite (Ut t X); apply Z.leb_gt; rewrite Forall_forall in Ht; apply Ht, X).
  assert (F : forall t, In t (cs ++ ns) -> f t = false) by (intros t X; unfold f; rewrite (U t X); destruct (t_body t) as [| |[]| |]; reflexivity).
  rewrite !(none_of f), !(none_of JsonModel.uses_time), Et by (intros t X; first [apply U | apply F]; first [exact X | apply in_or_app; left; exact X | apply in_or_app; right; exact X]). reflexivity.
Qed.
Print Assumptions C140_untimed.


(** ** Examples: the document of the plan [ex_timed] *)
Definition ex_tdoc : list (string * json R) :=
  [("basic_info", JObj [("n_steps", JInt 2); ("manip", JStr "arm"); ("fixed_timesteps", JArr [JInt 0]); ("dt_lower_lim", JReal (1 / 2)); ("dt_upper_lim", JInt 2); ("use_time", JBool true)]);
   ("constraints", JArr [JObj [("type", JStr "joint_vel"); ("use_time", JBool true); ("params", JObj (ex_params 0 [1 / 10] 0))];
                         JObj [("type", JStr "total_time"); ("use_time", JBool true); ("params", JObj [("limit", JInt 10)])]]);
   ("init_info", JObj [("type", JStr "Stationary")])]%string.
Lemma ex_tsays df : says_tplan (ex_env (ex_arm 1 0)) df ex_tdoc TimedProps.ex_timed 4 df.
Proof.
  set (g := a_group (ex_arm 1 0)). unfold says_tplan.
  exists {| b_steps := 2; b_manip := "arm"%string; b_fixed_timesteps := [0%Z]; b_fixed_dofs := []; b_solver := 4; b_dt_lower := 1 / 2; b_dt_upper := 2; b_time := true |}, (ex_arm 1 0), [],
    [{| t_name := "joint_vel"%string; t_type := 6; t_body := BJoint Vel (snd ex_vel) |}; {| t_name := "total_time"%string; t_type := 6; t_body := BTime 1 10 |}], [("type", JStr "Stationary")]%string.
  split; [nodup|]. split.
  { split; [|split; [|split; [reflexivity|split; [|split; [|split]]]]].
    - eexists. split; [left; reflexivity|]. eexists. split; [reflexivity|]. split; [nodup|]. unfold says_basic. cbn [b_steps b_manip b_fixed_timesteps b_fixed_dofs b_solver b_dt_lower b_dt_upper b_time].
      split; [eexists; split; [left; reflexivity|constructor; lia]|]. split; [eexists; split; [right; left; reflexivity|constructor]|].
      split; [right; eexists; split; [right; right; left; reflexivity|constructor; constructor; [constructor; lia|constructor]]|]. split; [absent|]. split; [absent|].
      split; [right; eexists; split; [do 3 right; left; reflexivity|constructor]|]. split; [right; eexists; split; [do 4 right; left; reflexivity|exact (is_num_int 2)]|]. right. eexists. split; [do 5 right; left; reflexivity|constructor].
    - absent.
    - absent.
    - right. eexists. split; [right; left; reflexivity|]. constructor. constructor; [|constructor; [|constructor]].
      + apply (says_term_ 2 2 g [("type", JStr "joint_vel"); ("use_time", JBool true); ("params", JObj (ex_params 0 [1 / 10] 0))]%string "joint_vel" true (ex_params 0 [1 / 10] 0) (BJoint Vel (snd ex_vel)) "joint_vel").
        * nodup.
        * eexists. split; [left; reflexivity|constructor].
        * right. eexists. split; [right; left; reflexivity|constructor].
        * right. right. left. reflexivity.
        * nodup.
        * constructor. assert (Nums : forall l : list R, is_list is_num (JArr (map JReal l)) l) by (intros l; constructor; induction l; constructor; [constructor|assumption]).
          split; [intros s Hs; cbn in Hs; cbn; tauto|]. split; [cbn; lia|]. cbn [ex_vel snd PlanProps.ex_term jt_targets jt_coeffs jt_uppers jt_lowers jt_first jt_last].
          split; [exists (JArr [JReal 0]); split; [cbn; auto|apply (Nums [0])]|].
          split; [right; exists (JArr []); split; [cbn; auto|apply (Nums [])]|].
          split; [right; exists (JArr (map JReal [1 / 10])); split; [cbn; auto|apply Nums]|].
          split; [right; exists (JArr (map JReal (map Ropp [1 / 10]))); split; [cbn; auto|apply Nums]|].
          split; right; eexists; (split; [cbn; auto 8|]); constructor; lia.
        * absent.
      + apply (says_term_ 2 2 g [("type", JStr "total_time"); ("use_time", JBool true); ("params", JObj [("limit", JInt 10)])]%string "total_time" true [("limit"%string, JInt 10)] (BTime 1 10) "total_time").
        * nodup.
        * eexists. split; [left; reflexivity|constructor].
        * right. eexists. split; [right; left; reflexivity|constructor].
        * right. right. left. reflexivity.
        * nodup.
        * constructor. split; [names_in|]. split; [absent|]. right. eexists. split; [left; reflexivity|exact (is_num_int 10)].
        * absent.
    - right. right. left. reflexivity.
    - nodup. }
  split; [reflexivity|]. split; [reflexivity|]. cbn [b_steps b_fixed_timesteps b_fixed_dofs b_dt_lower b_dt_upper TimedProps.ex_timed tp_dt_lower tp_dt_upper tp_limits tp_steps tp_now tp_fixed_steps tp_fixed_dofs tp_costs tp_cnts tp_init tp_data tp_dt length app].
  split; [lra|]. split; [lia|]. split; [eexists; split; [left; reflexivity|cbn; lia]|]. split; [intros t o q [<-|[<-|[]]] _ E; [injection E as <- _; right; reflexivity|discriminate]|].
  split; [reflexivity|]. split; [reflexivity|]. split; [reflexivity|]. split; [reflexivity|]. split; [reflexivity|]. split; [reflexivity|]. split; [reflexivity|]. split; [reflexivity|]. split; [reflexivity|].
  split; [constructor|]. split; [constructor; [reflexivity|constructor; [split; reflexivity|constructor]]|]. split.
  - apply (start_stationary _ _ _ "Stationary"%string 1).
    + exists (JStr "Stationary"%string). split; [left; reflexivity|constructor].
    + apply (word_upper "s"%char); [cbn; lia|]. repeat apply word_same. constructor.
    + absent.
  - absent.
Qed.

(** the document, its plan and a run that converges *)
Example C140_run : forall tz ti tr df, exists b (lib : library) ans s,
  says_tplan (ex_env (ex_arm 1 0)) df ex_tdoc TimedProps.ex_timed 4 df /\ tplan_ok TimedProps.ex_timed 100 0 3 3 (1 / 3) /\ RunSpec.honest 100 0 0 lib /\
  PipeModel.create_model (fun k => (k =? 1)%nat) None 4 = PipeModel.Created (PipeModel.kind_value (kind_of lib)) /\
  construct_tdoc tz ti tr (ex_env (ex_arm 1 0)) None (fun k => (k =? 1)%nat) true df (JObj ex_tdoc) = Done (TProblem (PipeModel.kind_value (kind_of lib)) b) /\
  optimize_timed 100 lib 1 (fun u : unit => u) (fun u => (u, 0)) 1 b tt = Ok (Done (ans, s)) /\ an_status ans = OPT_CONVERGED.
Proof.
  intros tz ti tr df. destruct C139_run as (b & solver & ans & s & OK & Eb & Hr & E & St & _). exists b, (Osqp 0 false solver), ans, s. split; [apply ex_tsays|]. split; [exact OK|]. split; [exact Hr|]. split; [reflexivity|].
  split; [|split; [exact E|exact St]]. rewrite (C140_constructed tz ti tr _ None (fun k => (k =? 1)%nat) true df ex_tdoc _ 4 df (ex_tsays df)), Eb. reflexivity.
Qed.
Example C140_start_ex : forall df, says_tplan (ex_env (ex_arm 1 0)) df ex_tdoc TimedProps.ex_timed 4 df /\ tplan_ok TimedProps.ex_timed 100 0 3 3 (1 / 3) /\
  In ("init_info"%string, JObj [("type", JStr "Stationary")]%string) ex_tdoc /\ says_init 2 [0] [("type", JStr "Stationary" : json R)]%string [[0]; [0]] 1.
Proof.
  intros df. split; [apply ex_tsays|]. split; [exact timed_ok|]. split; [right; right; left; reflexivity|]. apply (says_stationary 2 [0] _ "Stationary"%string 1).
  - exists (JStr "Stationary"%string). split; [left; reflexivity|constructor].
  - apply (word_upper "s"%char); [cbn; lia|]. repeat apply word_same. constructor.
  - absent.
Qed.

(** a document that says that it uses time, with a term on the total time that does not *)
Definition ex_disagrees : list (string * json R) :=
  [("basic_info", JObj [("n_steps", JInt 2); ("manip", JStr "arm"); ("use_time", JBool true)]); ("costs", JArr [JObj [("type", JStr "total_time"); ("params", JObj [])]]); ("init_info", JObj [("type", JStr "Stationary")])]%string.
Example C140_time_ex : forall df : params R, exists b cs ns im i d dt lc ln,
  distinct ex_disagrees /\ says_problem (groups (ex_env (ex_arm 1 0))) df ex_disagrees b df (a_group (ex_arm 1 0)) cs ns im /\ ex_env (ex_arm 1 0) (b_manip b) = Some (ex_arm 1 0) /\ 0 < b_dt_lower b <= b_dt_upper b /\
  timed_terms cs lc /\ timed_terms ns ln /\ says_start (g_dof (a_group (ex_arm 1 0))) (b_steps b) im i d /\ states_or im "dt" is_num 1 dt /\ b_time b = true /\ Forall (fun t => (t_type t < 4)%Z) (cs ++ ns) /\ cs <> [].
Proof.
  intros df. exists {| b_steps := 2; b_manip := "arm"%string; b_fixed_timesteps := []; b_fixed_dofs := []; b_solver := 4; b_dt_lower := 1; b_dt_upper := 1; b_time := true |},
    [{| t_name := "total_time"%string; t_type := 1; t_body := BTime 1 1 |}], [], [("type", JStr "Stationary")]%string.
  eexists _, _, 1, [TTotal 1 1 1], []. split; [nodup|]. split.
  { split; [|split; [|split; [reflexivity|split; [|split; [|split]]]]].
    - eexists. split; [left; reflexivity|]. eexists. split; [reflexivity|]. split; [nodup|]. unfold says_basic. cbn [b_steps b_manip b_fixed_timesteps b_fixed_dofs b_solver b_dt_lower b_dt_upper b_time].
      split; [eexists; split; [left; reflexivity|constructor; lia]|]. split; [eexists; split; [right; left; reflexivity|constructor]|].
      repeat (split; [absent|]). right. eexists. split; [right; right; left; reflexivity|constructor].
    - absent.
    - right. eexists. split; [right; left; reflexivity|]. constructor. constructor; [|constructor].
      apply (says_term_ 1 2 _ [("type", JStr "total_time"); ("params", JObj [])]%string "total_time" false [] (BTime 1 1) "total_time").
      + nodup.
      + eexists. split; [left; reflexivity|constructor].
      + absent.
      + right. left. reflexivity.
      + constructor.
      + constructor. split; [intros s []|]. split; absent.
      + absent.
    - absent.
    - right. right. left. reflexivity.
    - nodup. }
  split; [reflexivity|]. split; [cbn; lra|]. split; [constructor; [split; reflexivity|constructor]|]. split; [constructor|]. split.
  - apply (start_stationary _ _ _ "Stationary"%string 1).
    + exists (JStr "Stationary"%string). split; [left; reflexivity|constructor].
    + apply (word_upper "s"%char); [cbn; lia|]. repeat apply word_same. constructor.
    + absent.
  - split; [absent|]. split; [reflexivity|]. split; [constructor; [cbn; lia|constructor]|discriminate].
Qed.

(** the same document when it says that it does not use time *)
Definition ex_without : list (string * json R) :=
  [("basic_info", JObj [("n_steps", JInt 2); ("manip", JStr "arm"); ("use_time", JBool false)]); ("costs", JArr [JObj [("type", JStr "total_time"); ("params", JObj [])]]); ("init_info", JObj [("type", JStr "Stationary")])]%string.
Example C140_untimed_ex : forall df : params R, exists b cs ns im i d dt lc ln,
  distinct ex_without /\ says_problem (groups (ex_env (ex_arm 1 0))) df ex_without b df (a_group (ex_arm 1 0)) cs ns im /\ ex_env (ex_arm 1 0) (b_manip b) = Some (ex_arm 1 0) /\ 0 < b_dt_lower b <= b_dt_upper b /\
  timed_terms cs lc /\ timed_terms ns ln /\ says_start (g_dof (a_group (ex_arm 1 0))) (b_steps b) im i d /\ states_or im "dt" is_num 1 dt /\ b_time b = false /\ Forall (fun t => (t_type t < 4)%Z) (cs ++ ns) /\ cs <> [].
Proof.
  intros df. exists {| b_steps := 2; b_manip := "arm"%string; b_fixed_timesteps := []; b_fixed_dofs := []; b_solver := 4; b_dt_lower := 1; b_dt_upper := 1; b_time := false |},
    [{| t_name := "total_time"%string; t_type := 1; t_body := BTime 1 1 |}], [], [("type", JStr "Stationary")]%string.
  eexists _, _, 1, [TTotal 1 1 1], []. split; [nodup|]. split.
  { split; [|split; [|split; [reflexivity|split; [|split; [|split]]]]].
    - eexists. split; [left; reflexivity|]. eexists. split; [reflexivity|]. split; [nodup|]. unfold says_basic. cbn [b_steps b_manip b_fixed_timesteps b_fixed_dofs b_solver b_dt_lower b_dt_upper b_time].
      split; [eexists; split; [left; reflexivity|constructor; lia]|]. split; [eexists; split; [right; left; reflexivity|constructor]|].
      repeat (split; [absent|]). right. eexists. split; [right; right; left; reflexivity|constructor].
    - absent.
    - right. eexists. split; [right; left; reflexivity|]. constructor. constructor; [|constructor].
      apply (says_term_ 1 2 _ [("type", JStr "total_time"); ("params", JObj [])]%string "total_time" false [] (BTime 1 1) "total_time").
      + nodup.
      + eexists. split; [left; reflexivity|constructor].
      + absent.
      + right. left. reflexivity.
      + constructor.
      + constructor. split; [intros s []|]. split; absent.
      + absent.
    - absent.
    - right. right. left. reflexivity.
    - nodup. }
  split; [reflexivity|]. split; [cbn; lra|]. split; [constructor; [split; reflexivity|constructor]|]. split; [constructor|]. split.
  - apply (start_stationary _ _ _ "Stationary"%string 1).
    + exists (JStr "Stationary"%string). split; [left; reflexivity|constructor].
    + apply (word_upper "s"%char); [cbn; lia|]. repeat apply word_same. constructor.
    + absent.
  - split; [absent|]. split; [reflexivity|]. split; [constructor; [cbn; lia|constructor]|discriminate].
Qed.
