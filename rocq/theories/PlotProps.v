(** * C138: what the plot callbacks show *)
From Coq Require Import List ZArith Bool Arith Reals Lra Lia.
From Verif Require Import Num NumFacts Common IfoptModel NodesModel NodesProps ScoExprModel ArrayModel ArrayProps TrajCostModel TwistModel TrajoptModel LayoutProps PlotModel.
From Verif Require TrajCostProps.
Import ListNotations.
Local Open Scope R_scope.

(** ** What should be seen *)
Definition is_mark (c : call R) : Prop := match c with Mark _ => True | _ => False end.
(** the states of a trajectory of [m] steps: each names the joints and holds, for joint [j] at step [i], the value of cell (i, j) *)
Definition shows (joints : list nat) (m width : Z) (x : list R) (states : list (list nat * list R)) : Prop :=
  Z.of_nat (length states) = m /\
  forall i, (0 <= i < m)%Z -> exists row, nth_error states (Z.to_nat i) = Some (joints, row) /\ Z.of_nat (length row) = width /\
    forall j, (0 <= j < width)%Z -> nth (Z.to_nat j) row 0 = nth (Z.to_nat (i * width + j)) x 0.
(** where a point given in the frame of a link is *)
Definition at_link (fk : list R -> nat -> iso R) (q : list R) (link : nat) (u w : vec3 R) : Prop :=
  let p := fk q link in
  vx w = vx (r0 (linear p)) * vx u + vy (r0 (linear p)) * vy u + vz (r0 (linear p)) * vz u + vx (translation p) /\
  vy w = vx (r1 (linear p)) * vx u + vy (r1 (linear p)) * vy u + vz (r1 (linear p)) * vz u + vy (translation p) /\
  vz w = vx (r2 (linear p)) * vx u + vy (r2 (linear p)) * vy u + vz (r2 (linear p)) * vz u + vz (translation p).
(** the joints after a step by which the point moves against ([s] = -1) or along the normal *)
Definition stepped (jac : list R -> nat -> vec3 R -> list (vec3 R)) (q : list R) (link : nat) (u n : vec3 R) (s : R) (q' : list R) : Prop :=
  length q' = length q /\
  forall k, (k < length q)%nat -> nth k q' 0 = nth k q 0 + s * (vx n * vx (nth k (jac q link u) (V3 0 0 0)) + vy n * vy (nth k (jac q link u) (V3 0 0 0)) + vz n * vz (nth k (jac q link u) (V3 0 0 0))).

Section Facts.
  Context (fk : list R -> nat -> iso R) (active : nat -> bool) (jac : list R -> nat -> vec3 R -> list (vec3 R)).
  Lemma plot_costs_eq joints costs cnts vars (x : list R) rows : get_traj x vars = Some rows ->
    plot_costs fk active jac joints costs cnts vars x = Ok (Clear :: (flat_map (plot_object fk active jac x) costs ++ flat_map (plot_object fk active jac x) cnts) ++ [Trajectory (map (fun r => (joints, r)) rows); Wait]).
  Proof. intros E. unfold plot_costs, show. rewrite E. cbn [obind]. rewrite app_assoc. reflexivity. Qed.
  Lemma object_marks x o : Forall is_mark (plot_object fk active jac x o).
  Proof.
    destruct o as [|vs|vs a b so to|e v0 f|e v0 f]; cbn [plot_object]; try constructor; try exact I.
    - constructor; [exact I|]. constructor; [exact I|]. constructor.
    - apply Forall_app. split; [|constructor; [exact I|constructor]]. apply Forall_forall. intros c Hc. apply in_flat_map in Hc as (t & _ & Hc).
      destruct e; unfold plot_single, plot_pair in Hc; try apply in_app_iff in Hc as [Hc|Hc]; destruct (active _); cbn in Hc; try contradiction; destruct Hc as [<-|[]]; exact I.
  Qed.
  Lemma objects_marks x l : Forall is_mark (flat_map (plot_object fk active jac x) l).
  Proof. apply Forall_forall. intros c Hc. apply in_flat_map in Hc as (o & _ & Hc). pose proof (object_marks x o) as H. rewrite Forall_forall in H. auto. Qed.
  Lemma rows_show joints vars m w (x : list R) : cells vars m w (fun i j => Z.to_nat (i * w + j)) -> (1 <= w)%Z ->
    exists rows, get_traj x vars = Some rows /\ shows joints m w x (map (fun r => (joints, r)) rows).
  Proof.
    intros Hc Hw. destruct (C58_get_traj vars m w _ x Hc) as (rows & E & L & H). exists rows. split; [exact E|]. split; [rewrite map_length; exact L|].
    intros i Hi. destruct (H i 0%Z Hi ltac:(lia)) as (row & Er & Lr & _). exists row. split; [rewrite nth_error_map, Er; reflexivity|]. split; [exact Lr|].
    intros j Hj. destruct (H i j Hi Hj) as (row' & Er' & _ & Ej). rewrite Er in Er'. injection Er' as <-. rewrite (nth_error_nth _ _ 0 Ej). reflexivity.
  Qed.
  Lemma in_calls joints costs cnts vars (x : list R) l o : plot_costs fk active jac joints costs cnts vars x = Ok l -> In o (costs ++ cnts) ->
    exists before after, l = before ++ plot_object fk active jac x o ++ after.
  Proof.
    unfold plot_costs, show. destruct (get_traj x vars) as [rows|]; cbn [obind]; [|discriminate]. intros [= <-] Ho. rewrite (app_assoc (flat_map _ costs)), <- flat_map_app.
    apply in_split in Ho as (a & b & ->). rewrite flat_map_app. cbn [flat_map]. eexists (Clear :: flat_map _ a), _. rewrite <- !app_assoc. cbn [app]. reflexivity.
  Qed.
  Lemma move_at q link u : at_link fk q link u (move (fk q link) u).
  Proof. unfold at_link, move, apply, vadd, dot. cbn [vx vy vz]. rnum. repeat apply conj; ring. Qed.
  Lemma stepped_is q link u n s : length (jac q link u) = length q -> stepped jac q link u n s (qadd q (map (fun c => (s * dot n c)%num) (jac q link u))).
  Proof.
    intros L. unfold stepped, qadd. rewrite map_length, combine_length, map_length, L, Nat.min_id. split; [reflexivity|]. intros k Hk.
    rewrite (nth_indep _ 0 ((fun p => (fst p + snd p)%num) (0, s * dot n (V3 0 0 0))%num)) by (rewrite map_length, combine_length, map_length, L, Nat.min_id; exact Hk).
    rewrite (map_nth (fun p => (fst p + snd p)%num)), combine_nth by (rewrite map_length; auto). rewrite (map_nth (fun c => (s * dot n c)%num)). cbn [fst snd]. unfold dot. rnum. reflexivity.
  Qed.
End Facts.

(** ** The callbacks of trajopt *)
(** Without time, PlotCosts and PlotProb make the same calls: clear first, then markers, then the trajectory with the value of each
    joint at each step, then the wait for input. *)
Theorem C138_trajectory :
  forall fk active jac joints (costs cnts : list (object R)) n_steps (limits : list (R * R)) x p vars,
    (0 <= n_steps < 2 ^ 31)%Z -> (1 <= length joints)%nat -> (Z.of_nat (length joints) < 2 ^ 31)%Z -> length limits = length joints ->
    traj_prob n_steps (Z.of_nat (length joints)) false limits 0 0 = Done (p, vars) ->
    exists marks states, plot_costs fk active jac joints costs cnts vars x = Ok (Clear :: marks ++ [Trajectory states; Wait]) /\
      plot_prob fk active jac joints costs cnts (length p) x = Ok (Clear :: marks ++ [Trajectory states; Wait]) /\
      Forall is_mark marks /\ shows joints n_steps (Z.of_nat (length joints)) x states.
Proof.
  intros fk active jac joints costs cnts m limits x p vars Hm Hd Hd2 Hl E.
  destruct (C58_variables m (Z.of_nat (length joints)) false limits 0 0 Hm ltac:(lia) ltac:(lia) ltac:(lia)) as (p' & vars' & E' & Lp & Hc & _).
  rewrite E in E'. injection E' as <- <-. rewrite Z.add_0_r in Lp, Hc. destruct (rows_show joints vars m _ x Hc ltac:(lia)) as (rows & Er & Sh). eexists _, _.
  split; [exact (plot_costs_eq _ _ _ _ _ _ _ _ _ Er)|]. split; [|split; [apply Forall_app; split; apply objects_marks|exact Sh]].
  unfold plot_prob, guess_array. destruct (Z.eqb_spec (Z.of_nat (length joints)) 0) as [Z0|_]; [lia|].
  replace (Z.quot (Z.of_nat (length p)) (Z.of_nat (length joints))) with m by (rewrite Lp, Z.quot_mul; lia).
  assert (Hc2 : cells (of_data m (Z.of_nat (length joints)) (seq 0 (length p))) m (Z.of_nat (length joints)) (fun i j => Z.to_nat (i * Z.of_nat (length joints) + j))) by (apply of_seq_cells; [lia|lia|f_equal; lia]).
  destruct (rows_show joints _ m _ x Hc2 ltac:(lia)) as (rows2 & Er2 & _). rewrite (plot_costs_eq _ _ _ _ _ _ _ _ _ Er2).
  replace rows2 with rows; [reflexivity|]. clear -Er Er2 Hc Hc2. destruct Hc as (A1 & A2 & _ & _ & _ & A3), Hc2 as (B1 & B2 & _ & _ & _ & B3). unfold get_traj in Er, Er2. rewrite A1, A2 in Er. rewrite B1, B2 in Er2.
  set (g := fun i => map (fun j => var_value (Z.to_nat (i * Z.of_nat (length joints) + j)) x) (range 0 (Z.of_nat (length joints)))) in *.
  rewrite (TrajCostProps.omap_ok _ g) in Er by (intros i Hi; apply in_range in Hi; apply TrajCostProps.omap_ok; intros j Hj; apply in_range in Hj; rewrite A3 by lia; reflexivity).
  rewrite (TrajCostProps.omap_ok _ g) in Er2 by (intros i Hi; apply in_range in Hi; apply TrajCostProps.omap_ok; intros j Hj; apply in_range in Hj; rewrite B3 by lia; reflexivity).
  congruence.
Qed.
Print Assumptions C138_trajectory.

(** Any other call is one that a term asked for: with terms that draw nothing there are no markers. *)
Theorem C138_nothing_else :
  forall fk active jac joints (costs cnts : list (object R)) vars x l m,
    plot_costs fk active jac joints costs cnts vars x = Ok l -> In (Mark m) l ->
    exists o, In o (costs ++ cnts) /\ ((exists vs a b so to, o = PoseTerm vs a b so to) \/ exists e vs found, o = CollCost e vs found).
Proof.
  intros fk active jac joints costs cnts vars x l m. unfold plot_costs, show. destruct (get_traj x vars) as [rows|]; cbn [obind]; [|discriminate]. intros [= <-] H.
  assert (G : exists o, In o (costs ++ cnts) /\ In (Mark m) (plot_object fk active jac x o)).
  { destruct H as [H|H]; [discriminate|]. apply in_app_iff in H as [H|H]; [|apply in_app_iff in H as [H|H]].
    - apply in_flat_map in H as (o & Ho & H). exists o. split; [apply in_or_app; left; exact Ho|exact H].
    - apply in_flat_map in H as (o & Ho & H). exists o. split; [apply in_or_app; right; exact Ho|exact H].
    - cbn in H. destruct H as [H|[H|[]]]; discriminate. }
  destruct G as (o & Ho & G). exists o. split; [exact Ho|]. destruct o as [|vs|vs a b so to|e v0 f|e v0 f]; cbn [plot_object] in G; try contradiction.
  - left. exists vs, a, b, so, to. reflexivity.
  - right. exists e, v0, f. reflexivity.
Qed.
Print Assumptions C138_nothing_else.

(** A pose term shows the frame it moves, the frame it aims at, and an arrow from the origin of the first to that of the second. *)
Theorem C138_pose :
  forall fk active jac joints (costs cnts : list (object R)) vars x l vs source target so to,
    plot_costs fk active jac joints costs cnts vars x = Ok l -> In (PoseTerm vs source target so to) (costs ++ cnts) ->
    exists before after s t, l = before ++ [Mark (Axis s); Mark (Axis t); Mark (Arrow (translation s) (translation t))] ++ after /\
      (forall u v w w', at_link (fun _ _ => so) [] 0 u v -> at_link fk (map (fun k => nth k x 0) vs) source v w -> at_link (fun _ _ => s) [] 0 u w' -> w' = w) /\
      (forall u v w w', at_link (fun _ _ => to) [] 0 u v -> at_link fk (map (fun k => nth k x 0) vs) target v w -> at_link (fun _ _ => t) [] 0 u w' -> w' = w).
Proof.
  intros fk active jac joints costs cnts vars x l vs source target so to E Ho. destruct (in_calls fk active jac joints costs cnts vars x l _ E Ho) as (b & a & ->). cbn [plot_object]. unfold plot_pose, plot_poses.
  eexists b, a, _, _. split; [reflexivity|]. change (get_vec x vs) with (map (fun k => nth k x 0) vs).
  assert (G : forall p q u v w w', at_link (fun _ _ => q) [] 0 u v -> at_link (fun _ _ => p) [] 0 v w -> at_link (fun _ _ => iso_mul p q) [] 0 u w' -> w' = w).
  { intros [[[a1 a2 a3] [b1 b2 b3] [c1 c2 c3]] [t1 t2 t3]] [[[d1 d2 d3] [e1 e2 e3] [f1 f2 f3]] [s1 s2 s3]] [u1 u2 u3] [v1 v2 v3] [w1 w2 w3] [y1 y2 y3]. unfold at_link, iso_mul, move, mmul, transpose, apply, vadd, dot. cbn [linear translation r0 r1 r2 vx vy vz]. rnum.
    intros (-> & -> & ->) (-> & -> & ->) (-> & -> & ->). f_equal; ring. }
  split; intros u v w w' H1 H2 H3; [apply (G (fk (map (fun k => nth k x 0) vs) source) so u v)|apply (G (fk (map (fun k => nth k x 0) vs) target) to u v)]; assumption.
Qed.
Print Assumptions C138_pose.

(** A discrete or cast collision cost shows all contacts at the solution, and for each link of a contact that can move an arrow from the
    contact point to where that point of the link is after a step that separates the two: against the normal for the first link, along
    it for the second. *)
Theorem C138_contacts :
  forall fk active jac joints (costs cnts : list (object R)) vars x l e vs found c,
    let q := map (fun k => nth k x 0) vs in
    (forall q link u, length (jac q link u) = length q) ->
    plot_costs fk active jac joints costs cnts vars x = Ok l -> In (CollCost e vs found) (costs ++ cnts) ->
    In (Mark (Contacts (found x))) l /\
    (e <> Single -> In c (found x) ->
     (active (k_link0 c) = true -> exists q' w, In (Mark (Arrow (k_world0 c) w)) l /\ stepped jac q (k_link0 c) (k_local0 c) (k_normal c) (-1) q' /\ at_link fk q' (k_link0 c) (k_local0 c) w) /\
     (active (k_link1 c) = true -> exists q' w, In (Mark (Arrow (k_world1 c) w)) l /\ stepped jac q (k_link1 c) (k_local1 c) (k_normal c) 1 q' /\ at_link fk q' (k_link1 c) (k_local1 c) w)).
Proof.
  intros fk active jac joints costs cnts vars x l e vs found c q Hj E Ho. destruct (in_calls fk active jac joints costs cnts vars x l _ E Ho) as (b & a & ->). cbn [plot_object]. unfold plot_contacts. change (get_vec x vs) with q. split.
  - apply in_or_app. right. apply in_or_app. left. apply in_or_app. right. left. reflexivity.
  - intros Ne Hc. assert (P : forall y, In y (plot_pair fk active jac q c) -> In y (b ++ (flat_map (match e with Single => plot_single fk active jac q | Discrete | Cast => plot_pair fk active jac q end) (found x) ++ [Mark (Contacts (found x))]) ++ a)).
    { intros y Hy. apply in_or_app. right. apply in_or_app. left. apply in_or_app. left. apply in_flat_map. exists c. split; [exact Hc|]. destruct e; [contradiction Ne; reflexivity|exact Hy|exact Hy]. }
    split; intros Ha; eexists _, _; (split; [apply P; unfold plot_pair; rewrite Ha; apply in_or_app|]).
    + left. left. reflexivity.
    + split; [|apply move_at]. replace (-1) with ((- none_)%num : R) by (rnum; lra). apply stepped_is, Hj.
    + right. left. reflexivity.
    + split; [|apply move_at]. replace 1 with (none_ : R) by (rnum; lra). apply stepped_is, Hj.
Qed.
Print Assumptions C138_contacts.

(** ** Wrong arrows for a single time step *)
(** a link that slides along x with its only joint *)
Definition id3 : mat3 R := M3 (V3 1 0 0) (V3 0 1 0) (V3 0 0 1).
Definition slide (q : list R) (link : nat) : iso R := Iso id3 (V3 (nth 0 q 0) 0 0).
Definition slide_jac (q : list R) (link : nat) (u : vec3 R) : list (vec3 R) := map (fun _ => V3 1 0 0) q.
Definition ex_touch : touch R := {| k_link0 := 0; k_link1 := 1; k_world0 := V3 1 0 0; k_world1 := V3 1 0 0; k_local0 := V3 0 0 0; k_local1 := V3 1 0 0; k_normal := V3 1 0 0 |}.
Definition ex_array : array nat := of_data 1 1 [0%nat].
(** For a single time step the arrow does not end where the contact point goes. *)
Theorem C138_single_refuted :
  exists fk active jac joints vars (x : list R) vs found c l,
    let q := map (fun k => nth k x 0) vs in
    (forall q link u, length (jac q link u) = length q) /\ In c (found x) /\ active (k_link0 c) = true /\ at_link fk q (k_link0 c) (k_local0 c) (k_world0 c) /\
    plot_costs fk active jac joints [CollCost Single vs found] [] vars x = Ok l /\
    forall q' w, stepped jac q (k_link0 c) (k_local0 c) (k_normal c) (-1) q' -> at_link fk q' (k_link0 c) (k_local0 c) w -> ~ In (Mark (Arrow (k_world0 c) w)) l.
Proof.
  exists slide, (fun k => (k =? 0)%nat), slide_jac, [7%nat], ex_array, [1], [0%nat], (fun _ => [ex_touch]), ex_touch. eexists. cbn zeta. cbn [map nth]. split; [intros q link u; apply map_length|]. split; [left; reflexivity|]. split; [reflexivity|].
  split; [unfold at_link; cbn; lra|]. split; [reflexivity|]. intros q' w [L H] (W & _ & _). cbn [length] in H. specialize (H 0%nat ltac:(lia)). cbn in H, W, L.
  intros I. destruct I as [I|[I|[I|[I|[I|[]]]]]]; try discriminate I. injection I as I. subst w. unfold move, apply, dot, vadd, slide, qadd in W. cbn in W. rnum. destruct q' as [|a q']; [discriminate L|]. cbn [nth] in *. lra.
Qed.
Print Assumptions C138_single_refuted.
(** Nor is there an arrow for the second link, even if only that one moves. *)
Theorem C138_second_refuted :
  exists fk active jac joints vars (x : list R) vs found c l,
    In c (found x) /\ active (k_link1 c) = true /\ plot_costs fk active jac joints [CollCost Single vs found] [] vars x = Ok l /\ forall u w, ~ In (Mark (Arrow u w)) l.
Proof.
  exists slide, (fun k => (k =? 1)%nat), slide_jac, [7%nat], ex_array, [1], [0%nat], (fun _ => [ex_touch]), ex_touch. eexists. split; [left; reflexivity|]. split; [reflexivity|]. split; [reflexivity|].
  intros u w I. cbn in I. destruct I as [I|[I|[I|[I|[]]]]]; discriminate I.
Qed.
Print Assumptions C138_second_refuted.
(** The contacts of a collision constraint are not shown at all. *)
Theorem C138_constraint_refuted :
  exists fk active jac joints vars (x : list R) e vs found c l,
    In c (found x) /\ active (k_link0 c) = true /\ plot_costs fk active jac joints [] [CollCnt e vs found] vars x = Ok l /\ forall m, ~ In (Mark m) l.
Proof.
  exists slide, (fun k => (k =? 0)%nat), slide_jac, [7%nat], ex_array, [1], Discrete, [0%nat], (fun _ => [ex_touch]), ex_touch. eexists. split; [left; reflexivity|]. split; [reflexivity|]. split; [reflexivity|].
  intros m I. cbn in I. destruct I as [I|[I|[I|[]]]]; discriminate I.
Qed.
Print Assumptions C138_constraint_refuted.
(** With time, PlotCosts shows states with one value more than there are joints: the last one is the time step. *)
Theorem C138_timed :
  forall fk active jac joints (costs cnts : list (object R)) n_steps (limits : list (R * R)) dlo dup x p vars,
    (0 <= n_steps < 2 ^ 31)%Z -> (Z.of_nat (length joints) + 1 < 2 ^ 31)%Z -> length limits = length joints ->
    traj_prob n_steps (Z.of_nat (length joints)) true limits dlo dup = Done (p, vars) ->
    exists marks states, plot_costs fk active jac joints costs cnts vars x = Ok (Clear :: marks ++ [Trajectory states; Wait]) /\
      Forall is_mark marks /\ shows joints n_steps (Z.of_nat (length joints) + 1) x states.
Proof.
  intros fk active jac joints costs cnts m limits dlo dup x p vars Hm Hd2 Hl E.
  destruct (C58_variables m (Z.of_nat (length joints)) true limits dlo dup Hm ltac:(lia) Hd2 ltac:(lia)) as (p' & vars' & E' & _ & Hc & _).
  rewrite E in E'. injection E' as <- <-. destruct (rows_show joints vars m _ x Hc ltac:(lia)) as (rows & Er & Sh). eexists _, _.
  split; [exact (plot_costs_eq _ _ _ _ _ _ _ _ _ Er)|]. split; [apply Forall_app; split; apply objects_marks|exact Sh].
Qed.
Print Assumptions C138_timed.
(** PlotProb takes time steps for joint positions: the trajectory has states that are not in the solution. *)
Theorem C138_timed_refuted :
  exists fk active jac joints (limits : list (R * R)) dlo dup (x : list R) p vars l states,
    length limits = length joints /\ traj_prob 2 (Z.of_nat (length joints)) true limits dlo dup = Done (p, vars) /\ length x = length p /\
    plot_prob fk active jac joints [] [] (length p) x = Ok l /\ In (Trajectory states) l /\ length states = 4%nat /\
    exists k, nth_error p k = Some (NDt 0, (Some dlo, Some dup)) /\ nth_error states 1 = Some (joints, [nth k x 0]).
Proof.
  exists slide, (fun _ => true), slide_jac, [7%nat], [(-1, 1)], 5, 6, [0; 5; 1; 6]. eexists _, _, _, _. split; [reflexivity|]. split; [reflexivity|]. split; [reflexivity|]. split; [reflexivity|].
  split; [right; left; reflexivity|]. split; [reflexivity|]. exists 1%nat. split; reflexivity.
Qed.
Print Assumptions C138_timed_refuted.

(** ** The callbacks of trajopt_sqp *)
(** After the solver set the variables, JointStatePlottingCallback shows each variable in order with its part of the solution; like the
    other plot callbacks it never stops the solver. *)
Theorem C138_sqp :
  forall (l : list (list (add R))) (s s' : nodes R) (x : list R) names cnts,
    build l = Val s -> length x = ns_dim s -> Forall (fun v => (0 < v_size v)%nat) (all_vars s) -> nodes_set x s = Val s' ->
    (exists states, joint_state_plotter true names (all_vars s') = ([Trajectory states], true) /\
       Forall2 (fun v st => fst st = names (v_name v) /\ snd st = firstn (v_size v) (skipn (v_index v) x)) (all_vars s) states) /\
    joint_state_plotter false names (all_vars s') = ([], true) /\
    snd (cart_error_plotter true cnts) = true /\ snd (cart_error_plotter (T := R) false cnts) = true /\ snd (clear_plotter (T := R)) = true /\ snd (wait_for_input (T := R)) = true /\ snd (collision_plotter (T := R)) = true.
Proof.
  intros l s s' x names cnts E Lx Pos Es. destruct (C27_set_get l s x E Lx Pos) as (s2 & E2 & _ & _ & _ & _ & _ & F). rewrite Es in E2. injection E2 as <-. split.
  - eexists. split; [reflexivity|]. unfold to_joint_trajectory. clear Pos. induction F as [|v v' a b (N & _ & _ & _ & V) F IH]; cbn [map]; [constructor|]. constructor; [|exact IH]. cbn [fst snd]. rewrite N, V. split; reflexivity.
  - cbn. repeat apply conj; reflexivity.
Qed.
Print Assumptions C138_sqp.
(** CartesianErrorPlottingCallback shows, for each of its constraints in order, the current and the target pose and an arrow between. *)
Theorem C138_cart_error :
  forall (cnts : list (iso R * iso R)) before c after, cnts = before ++ c :: after ->
    exists l r, fst (cart_error_plotter true cnts) = l ++ [Mark (Axis (fst c)); Mark (Axis (snd c)); Mark (Arrow (translation (fst c)) (translation (snd c)))] ++ r /\
      length l = (3 * length before)%nat /\ length r = (3 * length after)%nat.
Proof.
  intros cnts before c after ->. unfold cart_error_plotter. cbn [fst]. rewrite flat_map_app. cbn [flat_map]. eexists _, _. split; [reflexivity|].
  assert (G : forall l : list (iso R * iso R), length (flat_map (fun c => plot_poses (fst c) (snd c)) l) = (3 * length l)%nat) by (induction l as [|d l IH]; cbn [flat_map length]; [reflexivity|rewrite app_length, IH; cbn; lia]).
  split; apply G.
Qed.
Print Assumptions C138_cart_error.
(** toTrajArray gives the values row by row, if all variables have the same size; if not it fails. *)
Theorem C138_array :
  forall vars : list (NodesModel.var R),
    ((forall v w, In v vars -> In w vars -> v_size v = v_size w) -> exists rows, to_traj_array vars = Val rows /\ length rows = length vars /\
       forall i v, nth_error vars i = Some v -> nth_error rows i = Some (v_vals v)) /\
    ((exists v w, In v vars /\ In w vars /\ v_size v <> v_size w) -> to_traj_array vars = Bad).
Proof.
  intros vars. unfold to_traj_array. destruct vars as [|v0 vars]; [split; [intros _; exists []; split; [reflexivity|]; split; [reflexivity|intros [|i] v; discriminate]|intros (v & w & [] & _)]|].
  set (f := fun v : NodesModel.var R => (length (v_vals v) =? length (v_vals v0))%nat). split.
  - intros H. assert (F : forallb f (v0 :: vars) = true) by (apply forallb_forall; intros v Hv; apply Nat.eqb_eq; apply (H v v0 Hv (or_introl eq_refl))). rewrite F. eexists. split; [reflexivity|]. split; [apply map_length|].
    intros i v Hv. rewrite nth_error_map, Hv. reflexivity.
  - intros (v & w & Hv & Hw & N). destruct (forallb f (v0 :: vars)) eqn:F; [|reflexivity]. exfalso. rewrite forallb_forall in F. pose proof (F v Hv) as Fv. pose proof (F w Hw) as Fw. apply Nat.eqb_eq in Fv, Fw. unfold v_size in N. congruence.
Qed.
Print Assumptions C138_array.

(** ** Examples *)
(** two joints, two steps, a pose term and a collision cost *)
Example C138_ex : exists p vars marks states, traj_prob 2 2 false [(-1, 1); (-2, 2)] 0 0 = Done (p, vars) /\
  let costs := [Plain; PoseTerm [0%nat; 1%nat] 0 1 (Iso id3 (V3 0 0 0)) (Iso id3 (V3 0 1 0)); CollCost Discrete [0%nat; 1%nat] (fun _ => [ex_touch])] in
  plot_costs slide (fun _ => true) slide_jac [7%nat; 8%nat] costs [] vars [1; 2; 3; 4] = Ok (Clear :: marks ++ [Trajectory states; Wait]) /\
  plot_prob slide (fun _ => true) slide_jac [7%nat; 8%nat] costs [] (length p) [1; 2; 3; 4] = Ok (Clear :: marks ++ [Trajectory states; Wait]) /\
  length marks = 6%nat /\ states = [([7%nat; 8%nat], [1; 2]); ([7%nat; 8%nat], [3; 4])].
Proof. eexists _, _, [_; _; _; _; _; _], _. split; [reflexivity|]. cbn zeta. split; [reflexivity|]. split; [reflexivity|]. split; reflexivity. Qed.
Example C138_timed_ex : exists p vars, traj_prob 2 1 true [(-1, 1)] 5 6 = Done (p, vars) /\ length p = 4%nat /\
  plot_costs slide (fun _ => true) slide_jac [7%nat] [] [] vars [0; 5; 1; 6] = Ok [Clear; Trajectory [([7%nat], [0; 5]); ([7%nat], [1; 6])]; Wait].
Proof. eexists _, _. split; [reflexivity|]. split; reflexivity. Qed.
(** a variable set with two variables, as in C138_sqp *)
Example C138_sqp_ex : exists s s', build [[AddVector 3 2 [0; 0] [{| b_lo := None; b_hi := None |}; {| b_lo := None; b_hi := None |}]]; [AddScalar 4 0 {| b_lo := None; b_hi := None |}]] = Val s /\
  length [1; 2; 3] = ns_dim s /\ Forall (fun v => (0 < v_size v)%nat) (all_vars s) /\ nodes_set [1; 2; 3] s = Val s' /\
  fst (joint_state_plotter true (fun k => [k]) (all_vars s')) = [Trajectory [([3%nat], [1; 2]); ([4%nat], [3])]] /\ to_traj_array (all_vars s') = Bad.
Proof.
  eexists _, _. split; [reflexivity|]. split; [reflexivity|]. split; [constructor; [cbn; lia|constructor; [cbn; lia|constructor]]|]. split; [reflexivity|]. split; reflexivity.
Qed.
Example C138_cart_ex : fst (cart_error_plotter true [(slide [1] 0, slide [2] 0)]) = [Mark (Axis (slide [1] 0)); Mark (Axis (slide [2] 0)); Mark (Arrow (V3 1 0 0) (V3 2 0 0))].
Proof. reflexivity. Qed.
