(** * A whole run of TrustRegionSQPSolver::solve through OSQP (C134) *)
From Coq Require Import List ZArith Bool Arith Reals Lra Lia.
From Verif Require Import Num NumFacts RSums Common IfoptModel IfoptProofs ExprsModel ExprsProps ModelingModel ModelingProofs QpModel QpSpec QpProofs QpProps QpCaseProps OsqpModel OsqpProps SqpRunModel SqpRunSpec SqpRunQpProofs SqpRunProofs.
From Verif Require SqpModel SqpProofs SqpExamples RunSpec RunProps.
Import ListNotations.
Local Open Scope R_scope.

Local Notation best s := (SqpModel.best (SqpModel.res s)).
Local Notation mu s := (SqpModel.merit_coeffs (SqpModel.res s)).
Local Notation x_of s := (SqpModel.p_vars s).

Lemma run_ok {C} L p0 eps delta P callback clock fuel pfuel (c : C) s : problem_ok p0 -> accepts L -> sized L ->
  run_solve L p0 P callback clock fuel pfuel c = Ok s -> invB L p0 eps delta P callback clock s.
Proof. intros A B D E. pose proof (run_safe L p0 eps delta A B D P callback clock fuel pfuel c) as K. rewrite E in K. exact K. Qed.

(** ** C134 *)
(** No run meets undefined behaviour, an exception or a failed assertion in the solver, the problem or the QP solver, whatever
    the library answers and whatever the callbacks and the clock do. *)
Theorem C134_no_abort :
  forall (C : Type) L p0 P (callback : C -> _) clock fuel pfuel (c : C), problem_ok p0 -> accepts L -> sized L ->
    run_solve L p0 P callback clock fuel pfuel c = NoFuel \/
    exists s p q, run_solve L p0 P callback clock fuel pfuel c = Ok s /\ w_state (SqpModel.world s) = Ok (p, q).
Proof.
  intros C L p0 P callback clock fuel pfuel c A B D. pose proof (run_safe L p0 0 0 A B D P callback clock fuel pfuel c) as K.
  destruct (run_solve L p0 P callback clock fuel pfuel c) as [s| |]; [right|left; reflexivity|destruct K]. destruct K as (_ & (p & q & E & _) & _). exists s, p, q. auto.
Qed.
Print Assumptions C134_no_abort.

Theorem C134_ends :
  forall (C : Type) L p0 P (callback : C -> _) clock (c : C), problem_ok p0 -> accepts L -> sized L ->
    0 <= SqpModel.trust_shrink_ratio P < 1 -> 0 < SqpModel.min_trust_box_size P ->
    exists K s, forall fuel pfuel, (K <= fuel)%nat -> (K <= pfuel)%nat -> run_solve L p0 P callback clock fuel pfuel c = Ok s.
Proof.
  intros C L p0 P callback clock c A B D (K0 & K1) Hm. destruct (run_ends L p0 0 0 A B D P callback clock K0 K1 Hm c) as (K & H). destruct (H K K (le_n _) (le_n _)) as (s & Es & _). exists K, s.
  intros fuel pfuel Hf Hg. destruct (H fuel pfuel Hf Hg) as (s' & E1 & E2). congruence.
Qed.
Print Assumptions C134_ends.

(** What is reported at the end belongs to the variables the problem is left with. *)
Theorem C134_reported :
  forall (C : Type) L p0 P (callback : C -> _) clock fuel pfuel (c : C) s, problem_ok p0 -> accepts L -> sized L ->
    run_solve L p0 P callback clock fuel pfuel c = Ok s ->
    x_of s = firstn (length (q_x p0)) (SqpModel.e_vars (best s)) /\ length (x_of s) = length (q_x p0) /\ length (mu s) = length (merits (q_src p0)) /\
    SqpModel.e_viols (best s) = map (exact_viol (x_of s)) (merits (q_src p0)) /\
    SqpModel.e_costs (best s) = map (exact_square (x_of s)) (objectives (q_src p0)) ++ map (exact_viol (x_of s)) (penalties (q_src p0)) /\
    SqpModel.e_merit (best s) = exact_merit p0 (mu s) (x_of s) /\
    (SqpModel.status s = SqpModel.kConverged -> Forall (fun t => exact_viol (x_of s) t < SqpModel.cnt_tolerance P) (merits (q_src p0))).
Proof.
  intros C L p0 P callback clock fuel pfuel c s A B D E. destruct (run_ok L p0 0 0 P callback clock fuel pfuel c s A B D E) as (K & _). pose proof K as [(V1 & (V2 & V3 & V4) & _) Lx _ Lm _ _].
  rewrite <- V1 in V2, V3. cbn [run_env SqpModel.exact_viols SqpModel.exact_costs] in V2, V3. rewrite (viols_at_spec p0 A _ Lx) in V2. rewrite (costs_at_spec p0 A _ Lx) in V3.
  split; [exact V1|]. split; [exact Lx|]. split; [exact Lm|]. split; [exact V2|]. split; [exact V3|]. split.
  - rewrite V4, V2, V3, merit_of_sum. unfold merit_sum, exact_merit. rewrite rsum_app, !rsum_map, combine_viols. reflexivity.
  - intros Es. pose proof (SqpProofs.solve_converged_feasible P (run_env L p0 callback clock) fuel pfuel (q_x p0) (first_world p0 c) s eq_refl E Es) as F.
    cbn [run_env SqpModel.exact_viols] in F. rewrite (viols_at_spec p0 A _ Lx) in F. rewrite Forall_map in F. eapply Forall_impl; [|exact F]. cbn beta. intros t Ht. apply Rltb_true. exact Ht.
Qed.
Print Assumptions C134_reported.

(** The variables are left where they started or within their bounds, up to the tolerance of the library. *)
Theorem C134_limits :
  forall (C : Type) L p0 P (callback : C -> _) clock fuel pfuel (c : C) s eps delta, problem_ok p0 -> accepts L -> sized L -> 0 <= eps -> honest eps delta L ->
    run_solve L p0 P callback clock fuel pfuel c = Ok s -> x_of s = q_x p0 \/ keeps eps p0 (x_of s).
Proof.
  intros C L p0 P callback clock fuel pfuel c s eps delta A B D He Ho E. destruct (run_ok L p0 eps delta P callback clock fuel pfuel c s A B D E) as (K & _). apply (co_lim _ _ _ _ _ _ _ _ K). split; assumption.
Qed.
Print Assumptions C134_limits.

(** If the last thing a run did was to solve a QP without taking the step or shrinking the box, then it converged, and nowhere in the
    trust region has the convexified merit function much left to gain. *)
Theorem C134_stationary :
  forall (C : Type) L p0 P (callback : C -> _) clock fuel pfuel (c : C) s t eps delta, problem_ok p0 -> weights_ok p0 -> accepts L -> sized L -> 0 <= eps -> honest eps delta L ->
    / 10 ^ 7 <= SqpModel.initial_merit_error_coeff P -> 1 <= SqpModel.merit_coeff_increase_ratio P -> keeps eps p0 (q_x p0) ->
    run_solve L p0 P callback clock fuel pfuel c = Ok s -> SqpModel.trace s = SqpModel.EvCallback true :: t ->
    SqpModel.status s = SqpModel.kConverged /\ exists box, SqpModel.box_size (SqpModel.res s) = repeat box (length (q_x p0)) /\
      forall y, region p0 (x_of s) box y ->
        exact_merit p0 (mu s) (x_of s) < convex_merit p0 (mu s) (x_of s) y + slop eps delta p0 (mu s) (x_of s) box +
          Rmax (SqpModel.min_approx_improve P) (SqpModel.min_approx_improve_frac P * Rmax (Rabs (exact_merit p0 (mu s) (x_of s))) (1 / 10 ^ 12)).
Proof.
  intros C L p0 P callback clock fuel pfuel c s t eps delta A W B D He Ho M1 M2 Hk E Et. destruct (run_ok L p0 eps delta P callback clock fuel pfuel c s A B D E) as (K & _ & H).
  destruct (H (ex_intro _ t Et)) as (Es & Q). split; [exact Es|]. destruct Q as (b & Eb & Q); [split; [split; assumption|split; [split; assumption|split; assumption]]|].
  destruct (C134_reported C L p0 P callback clock fuel pfuel c s A B D E) as (_ & _ & _ & _ & _ & Em & _).
  exists b. split; [destruct (co_coh _ _ _ _ _ _ _ _ K) as (_ & _ & _ & V4); rewrite <- V4; exact Eb|]. intros y Ry. specialize (Q y Ry). unfold margin in Q. rewrite Em in Q. exact Q.
Qed.
Print Assumptions C134_stationary.

(** For a merit function that is convex and that its convexification does not overestimate, that means close to the best point anywhere
    within the bounds. *)
Theorem C134_convex :
  forall (C : Type) L p0 P (callback : C -> _) clock fuel pfuel (c : C) s t eps delta, problem_ok p0 -> weights_ok p0 -> accepts L -> sized L -> 0 <= eps -> honest eps delta L ->
    / 10 ^ 7 <= SqpModel.initial_merit_error_coeff P -> 1 <= SqpModel.merit_coeff_increase_ratio P -> keeps eps p0 (q_x p0) ->
    run_solve L p0 P callback clock fuel pfuel c = Ok s -> SqpModel.trace s = SqpModel.EvCallback true :: t ->
    Forall2 (fun v b => inside b v) (x_of s) (q_bnds p0) -> RunSpec.convex_from (x_of s) (exact_merit p0 (mu s)) ->
    (forall y, length y = length (x_of s) -> convex_merit p0 (mu s) (x_of s) y <= exact_merit p0 (mu s) y) ->
    exists box, SqpModel.box_size (SqpModel.res s) = repeat box (length (q_x p0)) /\
      forall r y, 0 < box <= r -> region p0 (x_of s) r y ->
        exact_merit p0 (mu s) (x_of s) < exact_merit p0 (mu s) y + (slop eps delta p0 (mu s) (x_of s) box +
          Rmax (SqpModel.min_approx_improve P) (SqpModel.min_approx_improve_frac P * Rmax (Rabs (exact_merit p0 (mu s) (x_of s))) (1 / 10 ^ 12))) * (r / box).
Proof.
  intros C L p0 P callback clock fuel pfuel c s t eps delta A W B D He Ho M1 M2 Hk E Et Hx Hc Hu.
  destruct (C134_stationary C L p0 P callback clock fuel pfuel c s t eps delta A W B D He Ho M1 M2 Hk E Et) as (_ & box & Eb & Q). exists box. split; [exact Eb|].
  intros r y (Hb & Hr) (Y1 & Ly & Y3). set (T := box / r). assert (HT : 0 < T <= 1).
  { unfold T. split; [apply Rdiv_lt_0_compat; lra|]. apply (Rmult_le_reg_r r); [lra|]. unfold Rdiv. rewrite Rmult_assoc, Rinv_l by lra. lra. }
  assert (HTD : T * r = box) by (unfold T; field; lra).
  assert (Hz : region p0 (x_of s) box (RunSpec.towards T (x_of s) y)).
  { split; [|split; [apply RunProps.towards_len; exact Ly|]].
    - clear -Hx Y1 HT. revert y Y1. induction Hx as [|a b x bs Ha Hx IH]; intros y Y1; inversion Y1 as [|v b' y' bs' Hv Y2 E1 E2]; subst; [constructor|]. cbn [RunSpec.towards combine map fst snd]. constructor; [|apply IH, Y2].
      destruct Ha as (A1 & A2). destruct Hv as (B1 & B2). split; [intros l El; specialize (A1 l El); specialize (B1 l El); nra|intros u Eu; specialize (A2 u Eu); specialize (B2 u Eu); nra].
    - intros i Hi. rewrite RunProps.towards_nth by assumption. replace (nth i (x_of s) 0 + T * (nth i y 0 - nth i (x_of s) 0) - nth i (x_of s) 0) with (T * (nth i y 0 - nth i (x_of s) 0)) by ring.
      rewrite Rabs_mult, (Rabs_right T) by lra. rewrite <- HTD. apply Rmult_le_compat_l; [lra|apply Y3, Hi]. }
  specialize (Q _ Hz). specialize (Hu (RunSpec.towards T (x_of s) y) (RunProps.towards_len T _ _ Ly)). specialize (Hc y T Ly ltac:(lra)).
  set (M := exact_merit p0 (mu s)) in *. set (tol := slop _ _ _ _ _ _ + _) in *. assert (Kt : M (x_of s) < M (RunSpec.towards T (x_of s) y) + tol) by (unfold tol; lra).
  assert (HDb : r / box = / T) by (unfold T; field; lra). rewrite HDb. apply (Rmult_lt_reg_l T); [lra|]. replace (T * (M y + tol * / T)) with (T * M y + tol) by (field; lra). lra.
Qed.
Print Assumptions C134_convex.

(** ** An example: x <= 0 as a constraint, from x = 1/20; the library solves the QPs of this problem whose trust region contains 0 *)
Definition ex_problem : qp R := prob [1 / 20] [] [over (at_most 0)].
Definition rle (a b : R) : bool := if Rle_dec a b then true else false.
Definition req (a b : R) : bool := if Req_EM_T a b then true else false.
Definition known (w : solver R) : bool :=
  match o_hess w, o_grad w, o_mat w, o_bnd w with
  | Held [[h1; h2]; [h3; h4]], Held [g1; g2], Held [_; _; [(1%nat, k)]], Held ([l1; l2; l3], [u1; u2; u3]) =>
      ((o_nv w =? 2)%nat && (req h1 0 && (req h2 0 && (req h3 0 && req h4 0)))) && ((req g1 0 && rle 0 g2) && ((req k 1 && req l3 0) && ((rle l1 0 && rle 0 u1) && ((rle l2 0 && rle 0 u2) && rle 0 u3))))
  | _, _, _, _ => false
  end.
Definition ex_lib : lib :=
  {| l_oks := fun _ => (true, true, true, true); l_bnd := fun _ => true; l_up := fun _ => true; l_solved := fun _ => known; l_sol := fun _ w => repeat 0 (o_nv w) |}.
Lemma rle_spec a b : rle a b = true <-> a <= b.
Proof. unfold rle. destruct (Rle_dec a b); split; auto; discriminate. Qed.
Lemma req_spec a b : req a b = true <-> a = b.
Proof. unfold req. destruct (Req_EM_T a b); split; auto; discriminate. Qed.
Lemma dot_zeros r m : srow_dot r (repeat 0 m) = 0.
Proof.
  rewrite srow_dot_R. induction r as [|e r IH]; [reflexivity|]. rewrite rsum_cons, IH. replace (nth (fst e) (repeat 0 m) 0) with 0; [ring|].
  destruct (Nat.lt_ge_cases (fst e) m) as [L|L]; [symmetry; apply nth_repeat|symmetry; apply nth_overflow; rewrite repeat_length; exact L].
Qed.
Lemma ex_sized : sized ex_lib.
Proof. intros i w. apply repeat_length. Qed.
Lemma ex_honest : honest 0 0 ex_lib.
Proof.
  intros i w H g A lo hi E1 E2 E3 E4 K z. unfold ex_lib in K. cbn [l_solved] in K. unfold known in K. rewrite E1, E2, E3, E4 in K.
  destruct H as [|[|h1 [|h2 [|? ?]]] [|[|h3 [|h4 [|? ?]]] [|? ?]]]; try discriminate. destruct g as [|g1 [|g2 [|? ?]]]; try discriminate.
  destruct A as [|r1 [|r2 [|[|[[|[|?]] k] [|? ?]] [|? ?]]]]; try discriminate. destruct lo as [|l1 [|l2 [|l3 [|? ?]]]]; try discriminate. destruct hi as [|u1 [|u2 [|u3 [|? ?]]]]; try discriminate.
  rewrite !andb_true_iff, !rle_spec, !req_spec, Nat.eqb_eq in K. destruct K as ((N & -> & -> & -> & ->) & (-> & G) & (-> & ->) & (A1 & A2) & (A3 & A4) & A5).
  unfold z. cbn [ex_lib l_sol combine]. split.
  - repeat (apply Forall2_cons; [rewrite dot_zeros; cbn [fst snd]; lra|]). apply Forall2_nil.
  - intros y Ly F. rewrite N in *. destruct y as [|y0 [|y1 [|? ?]]]; try discriminate. inversion F as [|? ? ? ? _ F1 X1 X2]; subst. inversion F1 as [|? ? ? ? _ F2 X1 X2]; subst. inversion F2 as [|? ? ? ? Y _ X1 X2]; subst. cbn [fst snd] in Y. rewrite srow_dot_R, rsum_cons, rsum_nil in Y. cbn [fst snd nth] in Y.
    unfold osqp_objective, qform, bigsum, vdot. rewrite !vsum_R. cbn [repeat seq combine map Rsum fst snd]. rewrite !rsum_cons, !rsum_nil. cbn [nth]. rnum. destruct Y as ([Y|Y] & _); [lra|nra].
Qed.
Lemma ex_keeps : q_x ex_problem = [1 / 20] /\ q_src ex_problem = sets [] [over (at_most 0)] /\ q_bnds ex_problem = [free] /\ q_init ex_problem = true.
Proof. apply prob_keeps. Qed.
Lemma ex_ok : problem_ok ex_problem.
Proof.
  destruct ex_keeps as (E1 & E2 & E3 & E4).
  assert (Re : reach ex_problem) by (apply prob_reach; [constructor|]; repeat apply Forall_cons; try apply Forall_nil; split; try reflexivity; apply row_set_wf).
  split; [exact Re|]. split; [exact E4|]. rewrite E1, E2. split; [cbn; lia|]. intros x Lx. unfold all_usable, nonneg_objectives. cbn [set_variables q_x q_src]. rewrite E2.
  split; [split; [constructor|]; split; [constructor|]; split; [constructor|]; apply Forall_cons; [|apply Forall_nil]; rewrite Lx; apply row_set_usable; [repeat constructor|apply proper_most|right; right; reflexivity]|].
  split; [constructor|]. split; [left; reflexivity|]. cbn. lia.
Qed.
Lemma ex_weights : weights_ok ex_problem.
Proof.
  destruct ex_keeps as (E1 & E2 & E3 & E4). intros x Lx. rewrite E2. split; [constructor|]. apply Forall_cons; [|apply Forall_nil]. split; [reflexivity|]. unfold over. rewrite row_set_rows. apply Forall_cons; [cbn; lra|apply Forall_nil].
Qed.
(** the problem with [x <= 0] as its only constraint, whichever set it comes from *)
Definition ex_row (a : R) : crow := {| r_jac := [(0%nat, 1)]; r_val := a; r_bnd := at_most 0; r_w := 1 |}.
Lemma ex_viol a v : linear [a] (ex_row a) [v] = v.
Proof. unfold linear, thr_row, ex_row. cbn [r_jac r_val map fst snd]. thr_num. rewrite !srow_dot_R, !rsum_cons, !rsum_nil. cbn [fst snd nth]. ring. Qed.
Local Notation ex_par := (SqpExamples.defaults (T := R) 10 2).
Section Single.
Variables (ex_p : qp R) (ex_k : term R).
Hypothesis keeps0 : q_x ex_p = [1 / 20] /\ q_src ex_p = sets [] [ex_k] /\ q_bnds ex_p = [free] /\ q_init ex_p = true.
Hypothesis ok0 : problem_ok ex_p.
Hypothesis rows0 : forall a, term_rows [a] ex_k = [ex_row a].
(** the QP of the problem is one the library knows *)
Lemma ex_known (C : Type) a b m (w : world C) p s : wat ex_p [a] [b] [m] w -> w_state w = Ok (p, s) -> a - b <= 0 -> 0 <= a + b -> 0 <= m -> known s = true.
Proof.
  intros (pc & p' & s' & Ew & Bc & X & Y & Z & Cv & B & ((A1 & A2 & A3 & A4) & N1 & N2 & N3)) Ew' H1 H2 Hm. rewrite Ew in Ew'. injection Ew' as -> ->.
  destruct keeps0 as (E1 & E2 & E3 & E4). pose proof (ba_src _ _ Bc) as Es. pose proof (ba_bnds _ _ Bc) as Eb. rewrite E2 in Es. rewrite E3 in Eb.
  assert (Q : qp_rows pc = [(m, ex_row a)]) by (unfold qp_rows; rewrite X, Es, Z; cbn; rewrite rows0; reflexivity).
  destruct (cv_obj _ _ Cv) as (q & Sq & _ & Eg & Eh & Mq). rewrite Es, X in Sq, Mq. cbn [length] in Sq, Mq. destruct Sq as (S1 & _ & _ & S4 & S5 & S6).
  destruct (qe_obj_lin q) as [|l [|? ?]] eqn:El; try discriminate. destruct (qe_obj_quad q) as [|[|k [|? ?]] [|? ?]] eqn:Ek; try discriminate; try (inversion S6; discriminate).
  assert (Zq : l = 0 /\ k = 0).
  { assert (V : forall y, rsum (fun v => v) (qe_const q) + (l * y + k * (y * y)) = 0).
    { intros y. destruct (Mq ltac:(constructor) [y] eq_refl) as (_ & M). cbn [objectives sets s_sq s_dsq app flat_map] in M. rewrite rsum_nil in M. rewrite <- M. unfold qform, bigsum, vdot. rewrite El, Ek, vsum_R. cbn [seq combine map Rsum fst snd]. rewrite !rsum_cons, !rsum_nil. cbn [nth]. rnum. ring. }
    pose proof (V 0). pose proof (V 1). pose proof (V (-1)). split; lra. }
  destruct Zq as (-> & ->). rewrite Q in Eg. change (slack_costs _) with [m * 1] in Eg. cbn [app] in Eg. cbn [map] in Eh.
  assert (Em : c_mat (q_cvx p) = [thr_row [(0%nat, 1)] ++ [(1%nat, -1)]; [(0%nat, 1)]; [(1%nat, 1)]]) by (rewrite (cv_mat _ _ Cv), Q, X; reflexivity).
  assert (Er : c_rowb (q_cvx p) = [Some (shift (at_most 0) 0)]).
  { rewrite (cv_rowb _ _ Cv), Q, X. cbn [map snd r_bnd]. unfold rconst. cbn [ex_row r_val r_jac r_bnd]. do 3 f_equal. rewrite srow_dot_R, rsum_cons, rsum_nil. cbn [fst snd nth]. ring. }
  assert (Ev : c_varb (q_cvx p) = [Some {| b_lo := Some (a - b); b_hi := Some (a + b) |}]) by (rewrite (cv_varb _ _ Cv), X, Y, Eb; reflexivity).
  assert (El2 : c_slackb (q_cvx p) = [{| b_lo := Some 0; b_hi := None |}]) by (rewrite (cv_slackb _ _ Cv), Q; reflexivity).
  assert (D1 : twice (d_hess (qp_data p)) = [[0; 0]; [0; 0]]).
  { cbn [qp_data d_hess]. rewrite Eg, Eh. rewrite thr0. cbn [length map Nat.sub repeat app twice]. unfold twice. cbn [map]. change (@nzero R _) with 0. replace ((nofZ 2 * 0)%num : R) with 0 by (rnum; ring). reflexivity. }
  assert (D2 : clean (T := R) 0 = 0) by (unfold clean; destruct (_ <? _)%num; reflexivity).
  assert (D3 : 0 <= clean (T := R) (m * 1)) by (unfold clean; destruct (_ <? _)%num; [cbn; lra|lra]).
  assert (L0 : 0 <= (@ndec R _ 1 30)) by (rewrite Rdec30; apply pow_le; lra).
  change (o_hess s = Held (twice (d_hess (qp_data p)))) in A1. change (o_grad s = Held (map clean (d_grad (qp_data p)))) in A2.
  change (o_bnd s = Held (map clamp_lo (d_lo (qp_data p)), map clamp_hi (d_hi (qp_data p)))) in A4.
  unfold known. rewrite A1, A2, A3, A4, N1, D1. cbn [qp_data d_grad d_mat d_lo d_hi d_cols]. rewrite Eg, Em, Er, Ev, El2.
  cbn [app length map shift at_most b_lo b_hi option_map clamp_lo clamp_hi]. rewrite D2.
  assert (M1 : forall v : R, v <= 0 -> nmax v (nopp (ndec 1 30)) <= 0) by (intros v Hv; rewrite nmax_R; apply Rmax_lub; [exact Hv|rnum; lra]).
  assert (M2 : forall v : R, 0 <= v -> 0 <= nmin v (ndec 1 30)) by (intros v Hv; rewrite nmin_R; apply Rmin_glb; [exact Hv|exact L0]).
  assert (M3 : nmax 0 (nopp (ndec 1 30)) = 0) by (rewrite nmax_R; apply Rmax_left; rnum; lra).
  rewrite !andb_true_iff, !rle_spec, !req_spec. rnum.
  split; [tauto|]. split; [tauto|]. split; [tauto|]. 
  split; [split; [lra|apply M2; lra]|]. split; [split; [apply M1, H1|apply M2, H2]|exact L0].
Qed.
Local Notation ex_env := (run_env (C := unit) ex_lib ex_p (fun c _ => (c, [])) (fun c => (c, 0))).
(** the solver stands at [a] with the box [b]; the world is as after convexify(), if [w] *)
Record stands (i : Z) (w : bool) (a b : R) (s : SqpModel.sst R (world unit)) : Prop := {
  sd_w : if w then wat ex_p [a] [b] [10] (SqpModel.world s) else winv ex_p (SqpModel.world s);
  sd_x : x_of s = [a]; sd_pb : SqpModel.p_box s = [b]; sd_pm : SqpModel.p_merit s = [10]; sd_mu : mu s = [10]; sd_b : SqpModel.box_size (SqpModel.res s) = [b];
  sd_bx : firstn 1 (SqpModel.e_vars (best s)) = [a]; sd_m : SqpModel.e_merit (best s) = 10 * a; sd_v : SqpModel.e_viols (best s) = [a];
  sd_i : SqpModel.overall_it (SqpModel.res s) = i; sd_st : SqpModel.status s = SqpModel.kRunning }.
Lemma ex_n : length (q_x ex_p) = 1%nat.
Proof. destruct keeps0 as (-> & _). reflexivity. Qed.
Lemma ex_viols v : 0 <= v -> viols_at ex_p [v] = [v].
Proof.
  intros Hv. destruct keeps0 as (E1 & E2 & _). rewrite (viols_at_spec ex_p ok0) by (rewrite E1; reflexivity). rewrite E2. change (merits _) with [ex_k]. cbn [map].
  unfold exact_viol. rewrite rows0, rsum_cons, rsum_nil. cbn [ex_row r_bnd r_val]. rewrite viol_most by lra. f_equal. ring.
Qed.
Lemma ex_costs v : costs_at ex_p [v] = [].
Proof. destruct keeps0 as (E1 & E2 & _). rewrite (costs_at_spec ex_p ok0) by (rewrite E1; reflexivity). rewrite E2. reflexivity. Qed.
Lemma ex_solve i a b s : stands i true a b s -> 0 <= a <= b -> exists s', SqpModel.solveQPProblem ex_env s = (s', SqpModel.kRunning) /\ stands i true a b (SqpModel.set_status s' SqpModel.kRunning) /\
  SqpModel.e_viols (SqpModel.new (SqpModel.res s')) = [0] /\ firstn 1 (SqpModel.e_vars (SqpModel.new (SqpModel.res s'))) = [0] /\ SqpModel.e_merit (SqpModel.new (SqpModel.res s')) = 0 /\
  SqpModel.approx_improve (SqpModel.res s') = 10 * a /\ SqpModel.exact_improve (SqpModel.res s') = 10 * a /\ (1 / 10 ^ 12 <= 10 * a -> SqpModel.improve_ratio (SqpModel.res s') = 1) /\
  SqpModel.trace s' = SqpModel.EvCallback true :: SqpModel.EvQP true :: SqpModel.trace s.
Proof.
  intros D Hab. pose proof (sd_w _ _ _ _ _ D) as W. cbn iota in W. unfold SqpModel.solveQPProblem. cbn [run_env SqpModel.qp_solve].
  destruct (solve_world ex_lib ex_p 0 0 ok0 ex_sized _ _ _ _ W) as (w' & o & Ew & W' & _ & Ho & Hz).
  pose proof W as (pc & p & q & Es & _ & _ & _ & _ & _ & _ & ((_ & _ & _ & _) & N1 & _)). specialize (Ho p q Es eq_refl (ex_known unit a b 10 _ p q W Es ltac:(lra) ltac:(lra) ltac:(lra))). cbn [ex_lib l_sol] in Ho.
  set (z := repeat 0 (o_nv q)) in *. destruct (Hz z Ho) as (Lz & Vz & (pen & Cz & Lpen) & _ & _). destruct keeps0 as (E1 & E2 & _). rewrite ex_n in Lz, Vz, Cz. rewrite E2 in Vz, Cz, Lpen. cbn in Lpen. destruct pen; [|discriminate].
  assert (Fz : firstn 1 z = [0]) by (unfold z in *; destruct (o_nv q); [discriminate|reflexivity]). rewrite Fz in Vz. cbn [objectives sets s_sq s_dsq app map] in Cz. clear Lz Hz.
  assert (Vz0 : w_viols w' z = [0]).
  { rewrite Vz. change (merits _) with [ex_k]. cbn [map]. unfold lin_violation. rewrite rows0, rsum_cons, rsum_nil. rewrite ex_viol. change (r_bnd (ex_row a)) with (at_most 0). rewrite viol_most by lra. f_equal. ring. }
  rewrite Ew, Ho. cbn [run_env SqpModel.callbacks SqpModel.convex_viols SqpModel.convex_costs SqpModel.exact_viols SqpModel.exact_costs SqpModel.n_nlp SqpModel.set_variables SqpModel.emit SqpModel.set_world SqpModel.set_res SqpModel.world SqpModel.p_vars SqpModel.res SqpModel.new SqpModel.best SqpModel.merit_coeffs forallb].
  rewrite ex_n, Fz, Vz0, Cz, (ex_viols 0) by lra. rewrite ex_costs, (sd_mu _ _ _ _ _ D), (sd_m _ _ _ _ _ D).
  assert (M0 : SqpModel.merit_of (T := R) [] [0] [10] = 0) by (cbn; lra). rewrite M0.
  eexists. split; [reflexivity|]. cbn [SqpModel.emit SqpModel.set_world SqpModel.set_variables SqpModel.set_res SqpModel.n_nlp run_env SqpModel.res SqpModel.new SqpModel.best SqpModel.e_viols SqpModel.e_vars SqpModel.e_merit SqpModel.approx_improve SqpModel.exact_improve SqpModel.improve_ratio SqpModel.trace SqpModel.set_status].
  split; [|split; [reflexivity|split; [exact Fz|split; [reflexivity|split; [|split; [|split; [|reflexivity]]]]]]]; [| | |].
  - destruct D. constructor; try assumption; cbn [SqpModel.world SqpModel.res SqpModel.p_vars SqpModel.p_box SqpModel.p_merit SqpModel.merit_coeffs SqpModel.best SqpModel.box_size SqpModel.overall_it SqpModel.status]; try assumption; try reflexivity. cbn [SqpModel.set_status SqpModel.emit SqpModel.set_world SqpModel.set_variables SqpModel.set_res SqpModel.p_vars SqpModel.n_nlp run_env]. rewrite ex_n. assumption.
  - rnum. ring.
  - rnum. ring.
  - intros H. rnum. rewrite Rminus_0_r. rewrite Rabs_right by lra. change (Rdec 1 (-12)) with (1 / 10 ^ 12). destruct (Rltb_spec (10 * a) (1 / 10 ^ 12)); [lra|]. field. assert (0 < 1 / 10 ^ 12) by (apply Rdiv_lt_0_compat; [lra|apply pow_lt; lra]). lra.
Qed.

Lemma ex_tr_some fuel f s b : SqpModel.box_size (SqpModel.res s) = [b] -> 1 / 10 ^ 4 <= b ->
  SqpModel.tr_loop ex_par ex_env (S fuel) f s = match SqpModel.tr_body ex_par ex_env f s with SqpModel.TrReturn s => Ok s | SqpModel.TrContinue f s => SqpModel.tr_loop ex_par ex_env fuel f s end.
Proof.
  intros Eb Hb. cbn [SqpModel.tr_loop]. rewrite Eb. cbn [vmaxc]. change (SqpModel.min_trust_box_size ex_par) with (1 / 10 ^ 4).
  change (fold_left nmax [] b) with b. replace ((1 / 10 ^ 4)%R <=? b)%num with true by (symmetry; apply Rleb_true; exact Hb). reflexivity.
Qed.
Lemma ex_pow4 : 1 / 10 ^ 4 = 1 / 10000.
Proof. lra. Qed.
(** the body of the trust region loop at [a] *)
Lemma ex_body i f a b s : stands i true a b s -> 0 <= a <= b -> 1 / 10 ^ 3 <= a -> exists s', SqpModel.tr_body ex_par ex_env f s = SqpModel.TrReturn s' /\ stands (i + 1) false 0 (2 * b) s'.
Proof.
  intros D Hab Ha. unfold SqpModel.tr_body.
  match goal with |- context [SqpModel.solveQPProblem ex_env ?t] => set (s1 := t) end.
  assert (D1 : stands (i + 1) true a b s1) by (unfold s1; destruct D; constructor; cbn; try assumption; lia).
  destruct (ex_solve _ _ _ _ D1 Hab) as (s2 & -> & D2 & N1 & N2 & N3 & N4 & N5 & N6 & N7). cbn iota beta.
  change (SqpModel.res (SqpModel.set_status s2 SqpModel.kRunning)) with (SqpModel.res s2).
  change (SqpModel.min_approx_improve ex_par) with (1 / 10 ^ 4). change (SqpModel.min_approx_improve_frac ex_par) with (-1000000)%R. change (SqpModel.improve_ratio_threshold ex_par) with (25 / 10 ^ 2).
  rewrite N4, N5, (N6 ltac:(cbn [pow] in *; lra)). rewrite (sd_m _ _ _ _ _ D2) || (change (best s2) with (best (SqpModel.set_status s2 SqpModel.kRunning)); rewrite (sd_m _ _ _ _ _ D2)).
  assert (T1 : ((10 * a)%R <? (1 / 10 ^ 4)%R)%num = false) by (rnum; destruct (Rltb_spec (10 * a) (1 / 10 ^ 4)); [cbn [pow] in *; lra|reflexivity]).
  rewrite T1. replace ((10 * a)%R / nmax (nabs (10 * a)%R) (ndec 1 (-12)) <? (-1000000)%R)%num with false.
  2:{ symmetry. rnum. change (Rdec 1 (-12)) with (1 / 10 ^ 12). destruct (Rltb_spec (10 * a / nmax (Rabs (10 * a)) (1 / 10 ^ 12)) (-1000000)) as [L|L]; [|reflexivity]. exfalso.
      assert (0 < nmax (Rabs (10 * a)) (1 / 10 ^ 12)) by (rewrite nmax_R; eapply Rlt_le_trans; [|apply Rmax_r]; apply Rdiv_lt_0_compat; [lra|apply pow_lt; lra]).
      assert (0 <= 10 * a / nmax (Rabs (10 * a)) (1 / 10 ^ 12)) by (apply Rmult_le_pos; [lra|apply Rlt_le, Rinv_0_lt_compat; assumption]). lra. }
  replace ((10 * a)%R <? nzero)%num with false by (symmetry; rnum; destruct (Rltb_spec (10 * a) 0); [lra|reflexivity]).
  replace (1 <? (25 / 10 ^ 2)%R)%num with false by (symmetry; change (Rltb 1 (25 / 10 ^ 2) = false); destruct (Rltb_spec 1 (25 / 10 ^ 2)); [cbn [pow] in *; lra|reflexivity]).
  cbn [orb]. eexists. split; [reflexivity|]. unfold SqpModel.accept, SqpModel.scale_box. cbv zeta.
  change (SqpModel.res (SqpModel.set_status s2 SqpModel.kRunning)) with (SqpModel.res s2) in *. destruct D2 as [W X PB PM MU B BX M V I ST].
  cbn [SqpModel.set_status SqpModel.p_vars SqpModel.p_box SqpModel.p_merit SqpModel.world SqpModel.res SqpModel.status] in W, X, PB, PM, MU, B, BX, M, V, I, ST.
  assert (PB' : vscale (SqpModel.trust_expand_ratio ex_par) (SqpModel.p_box s2) = [2 * b]) by (rewrite PB; reflexivity).
  constructor; cbn [SqpModel.set_res SqpModel.set_world SqpModel.set_pbox SqpModel.set_variables SqpModel.emit SqpModel.set_status SqpModel.with_box SqpModel.with_best SqpModel.world SqpModel.p_vars SqpModel.p_box SqpModel.p_merit SqpModel.res SqpModel.merit_coeffs SqpModel.box_size SqpModel.best SqpModel.e_vars SqpModel.e_merit SqpModel.e_viols SqpModel.overall_it SqpModel.status SqpModel.n_nlp SqpModel.update_bounds run_env];
    try assumption; try reflexivity.
  - rewrite PB', ex_n, N2. apply wfit_inv, bounds_fit; [eapply wat_fit, W|rewrite ex_n; reflexivity|rewrite ex_n; reflexivity].
  - rewrite ex_n. exact N2.
  - rewrite N3. ring.
Qed.
Lemma ex_last i f b s : stands i true 0 b s -> 0 <= b -> exists s' t, SqpModel.tr_body ex_par ex_env f s = SqpModel.TrReturn s' /\ SqpModel.status s' = SqpModel.kConverged /\
  x_of s' = [0] /\ mu s' = [10] /\ SqpModel.box_size (SqpModel.res s') = [b] /\ SqpModel.e_viols (best s') = [0] /\ firstn 1 (SqpModel.e_vars (best s')) = [0] /\ SqpModel.trace s' = SqpModel.EvCallback true :: t.
Proof.
  intros D Hb. unfold SqpModel.tr_body.
  match goal with |- context [SqpModel.solveQPProblem ex_env ?t] => set (s1 := t) end.
  assert (D1 : stands (i + 1) true 0 b s1) by (unfold s1; destruct D; constructor; cbn; try assumption; lia).
  destruct (ex_solve _ _ _ _ D1 ltac:(lra)) as (s2 & -> & D2 & N1 & N2 & N3 & N4 & N5 & _ & N7). cbn iota beta.
  change (SqpModel.res (SqpModel.set_status s2 SqpModel.kRunning)) with (SqpModel.res s2). rewrite N4. change (SqpModel.min_approx_improve ex_par) with (1 / 10 ^ 4).
  replace ((10 * 0)%R <? (1 / 10 ^ 4)%R)%num with true by (symmetry; apply Rltb_true; cbn [pow]; lra).
  eexists _, _. split; [reflexivity|]. destruct D2 as [W X PB PM MU B BX M V I ST]. split; [reflexivity|]. split; [exact X|]. split; [exact MU|]. split; [exact B|]. split; [exact V|]. split; [exact BX|exact N7].
Qed.
(** the beginning of a step *)
Lemma ex_open i a b s : stands i false a b s -> forall r, r = SqpModel.res s \/ (exists p1 p2 p3, r = SqpModel.with_its (SqpModel.res s) p1 p2 p3 i) -> forall t,
  stands i true a b {| SqpModel.status := SqpModel.status s; SqpModel.res := r; SqpModel.p_vars := x_of s; SqpModel.p_box := SqpModel.p_box s; SqpModel.p_merit := SqpModel.p_merit s;
    SqpModel.world := SqpModel.convexify ex_env (SqpModel.world s) (x_of s) (SqpModel.p_box s) (SqpModel.p_merit s); SqpModel.trace := t |}.
Proof.
  intros D r Hr t. destruct D as [W X PB PM MU B BX M V I ST]. destruct Hr as [->|(p1 & p2 & p3 & ->)]; (constructor; cbn [SqpModel.world SqpModel.p_vars SqpModel.p_box SqpModel.p_merit SqpModel.res SqpModel.with_its SqpModel.merit_coeffs SqpModel.box_size SqpModel.best SqpModel.overall_it SqpModel.status]; try assumption; try reflexivity);
    rewrite X, PB, PM; cbn [run_env SqpModel.convexify]; (apply convexify_world; [exact ok0|exact W|rewrite ex_n; reflexivity|rewrite ex_n; reflexivity|destruct keeps0 as (_ & -> & _); reflexivity]).
Qed.
Lemma ex_first s : stands 0 false (1 / 20) (1 / 10) s -> exists s', SqpModel.stepSQPSolver ex_par ex_env 1 s = Ok (s', false) /\ stands 1 false 0 (1 / 5) s'.
Proof.
  intros D. unfold SqpModel.stepSQPSolver, SqpModel.runTrustRegionLoop. cbv zeta. cbn [SqpModel.emit SqpModel.set_world SqpModel.set_res SqpModel.p_vars SqpModel.p_box SqpModel.p_merit SqpModel.world SqpModel.res SqpModel.status SqpModel.trace].
  match goal with |- context [SqpModel.tr_loop _ _ _ _ ?t] => assert (D1 : stands 0 true (1 / 20) (1 / 10) t) end.
  { apply ex_open with (s := s); [exact D|]. right. exists (SqpModel.penalty_it (SqpModel.res s)), (SqpModel.convexify_it (SqpModel.res s) + 1)%Z, 0%Z. rewrite <- (sd_i _ _ _ _ _ D). reflexivity. }
  rewrite (ex_tr_some _ _ _ _ (sd_b _ _ _ _ _ D1)) by (cbn [pow]; lra).
  destruct (ex_body _ 0%Z _ _ _ D1) as (s' & -> & D2); [lra|cbn [pow]; lra|]. replace (2 * (1 / 10)) with (1 / 5) in D2 by lra. cbn [obind].
  rewrite (sd_st _ _ _ _ _ D2). cbn [SqpModel.status_eqb]. rewrite (sd_b _ _ _ _ _ D2). cbn [vmaxc]. change (fold_left nmax [] (1 / 5)) with (1 / 5). change (SqpModel.min_trust_box_size ex_par) with (1 / 10 ^ 4).
  replace ((1 / 5)%R <? (1 / 10 ^ 4)%R)%num with false; [exists s'; split; [reflexivity|exact D2]|]. symmetry. change (Rltb (1 / 5) (1 / 10 ^ 4) = false). destruct (Rltb_spec (1 / 5) (1 / 10 ^ 4)); [cbn [pow] in *; lra|reflexivity].
Qed.
Lemma ex_second s : stands 1 false 0 (1 / 5) s -> exists s' t, SqpModel.stepSQPSolver ex_par ex_env 1 s = Ok (s', true) /\ SqpModel.status s' = SqpModel.kConverged /\
  x_of s' = [0] /\ mu s' = [10] /\ SqpModel.box_size (SqpModel.res s') = [1 / 5] /\ SqpModel.e_viols (best s') = [0] /\ firstn 1 (SqpModel.e_vars (best s')) = [0] /\ SqpModel.trace s' = SqpModel.EvCallback true :: t.
Proof.
  intros D. unfold SqpModel.stepSQPSolver, SqpModel.runTrustRegionLoop. cbv zeta. cbn [SqpModel.emit SqpModel.set_world SqpModel.set_res SqpModel.p_vars SqpModel.p_box SqpModel.p_merit SqpModel.world SqpModel.res SqpModel.status SqpModel.trace].
  match goal with |- context [SqpModel.tr_loop _ _ _ _ ?t] => assert (D1 : stands 1 true 0 (1 / 5) t) end.
  { apply ex_open with (s := s); [exact D|]. right. exists (SqpModel.penalty_it (SqpModel.res s)), (SqpModel.convexify_it (SqpModel.res s) + 1)%Z, 0%Z. rewrite <- (sd_i _ _ _ _ _ D). reflexivity. }
  rewrite (ex_tr_some _ _ _ _ (sd_b _ _ _ _ _ D1)) by (cbn [pow]; lra).
  destruct (ex_last _ 0%Z _ _ D1 ltac:(lra)) as (s' & t & -> & Es & Rest). cbn [obind]. rewrite Es. cbn [SqpModel.status_eqb]. exists s', t. auto.
Qed.
Lemma ex_init : stands 0 false (1 / 20) (1 / 10) (SqpModel.init ex_par ex_env (q_x ex_p) (first_world ex_p tt)).
Proof.
  destruct (init_A ex_lib ex_p 0 0 ok0 ex_par (fun (c : unit) _ => (c, [])) (fun c => (c, 0)) tt) as (K & W & _). destruct keeps0 as (E1 & E2 & _).
  unfold SqpModel.init, SqpModel.constraintMeritCoeffChanged, SqpModel.setBoxSize in *. cbv zeta in *.
  constructor; cbn [SqpModel.set_res SqpModel.set_pbox SqpModel.with_box SqpModel.with_best SqpModel.world SqpModel.p_vars SqpModel.p_box SqpModel.p_merit SqpModel.res SqpModel.merit_coeffs SqpModel.box_size SqpModel.best SqpModel.e_vars SqpModel.e_merit SqpModel.e_viols SqpModel.e_costs SqpModel.overall_it SqpModel.status SqpModel.n_nlp SqpModel.n_cnt SqpModel.exact_viols SqpModel.exact_costs run_env];
    rewrite ?ex_n, ?E1, ?E2; change (length (merits (sets [] [ex_k]))) with 1%nat; try reflexivity.
  - exact W.
  - cbn [repeat]. f_equal. change (1 / 10 ^ 1 = 1 / 10). field.
  - cbn [repeat]. f_equal. change (1 / 10 ^ 1 = 1 / 10). field.
  - rewrite ex_viols by lra. rewrite ex_costs. cbn. lra.
  - apply ex_viols. lra.
Qed.
Lemma ex_runs : exists s t, run_solve ex_lib ex_p ex_par (fun c _ => (c, [])) (fun c => (c, 0)) 1 1 tt = Ok s /\
  SqpModel.status s = SqpModel.kConverged /\ x_of s = [0] /\ SqpModel.box_size (SqpModel.res s) = [1 / 5] /\ SqpModel.trace s = SqpModel.EvCallback true :: t.
Proof.
  unfold run_solve, SqpModel.solve. cbn [SqpModel.penalty_loop]. replace (nofZ 0 <? SqpModel.max_merit_coeff_increases ex_par)%num with true by (symmetry; apply Rltb_true; cbn; lra).
  pose proof ex_init as D. set (s0 := SqpModel.init _ _ _ _) in *. clearbody s0. cbv zeta. set (s1 := SqpModel.set_res s0 _).
  assert (D1 : stands 0 false (1 / 20) (1 / 10) s1) by (destruct D; constructor; assumption). clearbody s1. clear D s0.
  change 99%nat with (S (S 97)). cbn [SqpModel.convex_loop]. cbn [run_env SqpModel.clock]. cbv zeta.
  assert (T : forall i a b s, stands i false a b s -> stands i false a b (SqpModel.set_world s (with_rest (SqpModel.world s) (w_rest (SqpModel.world s))))).
  { intros i a b s [Q1 Q2 Q3 Q4 Q5 Q6 Q7 Q8 Q9 Q10 Q11]. constructor; try assumption. }
  assert (L0 : (SqpModel.max_time ex_par <? 0)%num = false) by (change (Rltb 1000 0 = false); destruct (Rltb_spec 1000 0); [lra|reflexivity]).
  rewrite L0. change (SqpModel.max_iterations ex_par) with 10%Z. pose proof (T _ _ _ _ D1) as D2. set (s2 := SqpModel.set_world s1 _) in *. clearbody s2. rewrite (sd_i _ _ _ _ _ D2). change (0 >=? 10)%Z with false. cbn iota.
  destruct (ex_first s2 D2) as (s3 & E3 & D3). rewrite E3. cbn [obind]. pose proof (T _ _ _ _ D3) as D4. set (s4 := SqpModel.set_world s3 _) in *. clearbody s4. rewrite (sd_i _ _ _ _ _ D4). change (1 >=? 10)%Z with false. cbn iota.
  destruct (ex_second s4 D4) as (s5 & t & E5 & Es & X & MU & B & V & BX & Et). rewrite E5. cbn [obind].
  unfold SqpModel.verifySQPSolverConvergence. rewrite V. cbn [vmaxc]. change (fold_left nmax [] 0) with 0. change (SqpModel.cnt_tolerance ex_par) with (1 / 10 ^ 4).
  replace (0 <? (1 / 10 ^ 4)%R)%num with true by (symmetry; apply Rltb_true; cbn [pow]; lra).
  exists (SqpModel.set_variables ex_env (SqpModel.set_status s5 SqpModel.kConverged) (SqpModel.e_vars (best s5))), t. split; [reflexivity|]. split; [reflexivity|].
  cbn [SqpModel.set_variables SqpModel.p_vars SqpModel.n_nlp run_env]. rewrite ex_n. split; [exact BX|]. split; [exact B|exact Et].
Qed.
End Single.
(** One step to 0 and a QP that finds nothing better. *)
Lemma over_rows a : term_rows [a] (over (at_most 0)) = [ex_row a].
Proof. unfold over. rewrite row_set_rows. unfold ex_row. do 2 f_equal. rewrite srow_dot_R, rsum_cons, rsum_nil. cbn [fst snd nth]. ring. Qed.
Example C134_run : exists s t, run_solve ex_lib ex_problem ex_par (fun c _ => (c, [])) (fun c => (c, 0)) 1 1 tt = Ok s /\
  SqpModel.status s = SqpModel.kConverged /\ x_of s = [0] /\ SqpModel.box_size (SqpModel.res s) = [1 / 5] /\ SqpModel.trace s = SqpModel.EvCallback true :: t.
Proof. apply (ex_runs ex_problem (over (at_most 0)) ex_keeps ex_ok over_rows). Qed.
Example C134_meets : problem_ok ex_problem /\ weights_ok ex_problem /\ accepts ex_lib /\ sized ex_lib /\ honest 0 0 ex_lib /\ keeps 0 ex_problem (q_x ex_problem) /\
  / 10 ^ 7 <= SqpModel.initial_merit_error_coeff ex_par /\ 1 <= SqpModel.merit_coeff_increase_ratio ex_par /\ 0 <= SqpModel.trust_shrink_ratio ex_par < 1 /\ 0 < SqpModel.min_trust_box_size ex_par.
Proof.
  split; [exact ex_ok|]. split; [exact ex_weights|]. split; [intros i; reflexivity|]. split; [exact ex_sized|]. split; [exact ex_honest|].
  destruct ex_keeps as (-> & _ & Eb & _). split; [unfold keeps; rewrite Eb; constructor; [|constructor]; split; intros ? [=]|].
  split; [cbn; lra|]. split; [cbn; lra|]. split; [change (0 <= 1 / 10 ^ 1 < 1); lra|change (0 < 1 / 10 ^ 4); cbn [pow]; lra].
Qed.
