(** * TrajOptQPProblem: exact evaluation, repeated setup(), examples and counterexamples *)
From Coq Require Import List ZArith Bool Arith Reals Lra Lia.
From Verif Require Import Num NumFacts RSums IfoptModel IfoptProofs ExprsModel ExprsProps ModelingSpec QpModel QpSpec QpProofs QpSlackProofs QpEvalProofs QpProps.
Import ListNotations.
Local Open Scope R_scope.

(** ** Exact costs (C22) *)
(** what getExactCosts() reports: weighted squares, unweighted violations *)
Definition exact_square (x : list R) (t : term R) : R := rsum (fun r => r_w r * bound_viol (r_bnd r) (r_val r) ^ 2) (term_rows x t).
Lemma rows_of_square js vs bs ws : length vs = length js -> length bs = length js -> length ws = length js ->
  vzip nmul (vzip nmul (map (fun p => bound_viol (fst p) (snd p)) (combine bs vs)) (map (fun p => bound_viol (fst p) (snd p)) (combine bs vs))) ws =
  map (fun r => r_w r * bound_viol (r_bnd r) (r_val r) ^ 2) (rows_of js vs bs ws).
Proof.
  unfold vzip. revert vs bs ws. induction js as [|j js IH]; intros [|v vs] [|b bs] [|w ws]; intros; try discriminate; [reflexivity|]. cbn [combine map rows_of fst snd r_w r_bnd r_val].
  f_equal; [rnum; ring|]. apply IH; auto.
Qed.
Lemma exact_squared_spec x (t : term R) : comp_ok (tm_at t x) -> exact_squared (tm_at t x) = Val (exact_square x t).
Proof.
  intros C. pose proof C as (A1 & A2 & A3 & A4). unfold exact_squared, exact_square. pose proof (term_rows_length x t C) as Lr.
  destruct (Nat.eqb_spec (cm_rows (tm_at t x)) 0) as [Z|Z].
  - rewrite Z in Lr. destruct (term_rows x t); [reflexivity|discriminate].
  - rewrite (proj2 (Nat.eqb_eq _ _) A1), (proj2 (Nat.eqb_eq _ _) A2). cbn [andb]. unfold bounds_violations. rewrite sized_val by congruence. cbn [rbind]. f_equal. rewrite vsum_R. unfold rsum, term_rows, comp_rows.
    f_equal. apply rows_of_square; congruence.
Qed.
Lemma exact_costs_spec p : inv p -> q_init p = true -> all_usable p ->
  exact_costs p = Val (map (exact_square (q_x p)) (objectives (q_src p)) ++ map (exact_viol (q_x p)) (hinges (q_src p) ++ absolutes (q_src p))).
Proof.
  intros I H (U1 & U2 & U3 & _). unfold exact_costs. rewrite H, (iv_lay p I H). cbn [l_obj l_pen layout_of].
  rewrite (mapr_val _ (exact_square (q_x p))) by (intros t Ht; apply exact_squared_spec; rewrite Forall_forall in U1; apply (U1 t Ht)). cbn [rbind].
  rewrite (mapr_val _ (exact_viol (q_x p))); [cbn [rbind]; unfold pens, hinges, absolutes; rewrite <- app_assoc; reflexivity|].
  intros t Ht. apply exact_violation_spec. unfold pens in Ht. rewrite app_assoc in Ht. apply in_app_iff in Ht. rewrite Forall_forall in U2, U3. destruct Ht as [Ht|Ht]; [apply (U2 t Ht)|apply (U3 t Ht)].
Qed.
(** With unit coefficients, targets without width and no Jacobian entry below 1e-7, getExactCosts()
    reports at the current point what the QP built there charges at that point. *)
Theorem C22_unit_weights_partial : forall p : qp R, reach p -> q_init p = true -> all_usable p ->
  Forall (fun t => Forall (fun r => b_lo (r_bnd r) = b_hi (r_bnd r)) (term_rows (q_x p) t)) (objectives (q_src p)) ->
  Forall (fun t => Forall (fun r => r_w r = 1 /\ no_small r) (term_rows (q_x p) t)) (hinges (q_src p) ++ absolutes (q_src p)) ->
  exact_costs p = Val (map (gn_cost (q_x p) (q_x p)) (objectives (q_src p)) ++ map (set_penalty (q_x p) (q_x p)) (hinges (q_src p) ++ absolutes (q_src p))).
Proof.
  intros p Re H U Fo Fp. pose proof (reach_inv p Re) as I. rewrite (exact_costs_spec p I H U). f_equal. f_equal.
  - apply map_ext_in. intros t Ht. destruct U as (U & _). rewrite Forall_forall in U, Fo. specialize (Fo t Ht). pose proof (usable_rows _ _ _ _ (U t Ht)) as F. rewrite Forall_forall in F, Fo.
    unfold exact_square, gn_cost, gn. apply rsum_ext. intros r Hr. destruct (F r Hr) as (_ & Hp & Ty). specialize (Fo r Hr). f_equal.
    replace (r_val r + (_ - _) - row_target r) with (r_val r - row_target r) by ring. unfold row_target. rewrite bound_viol_abs.
    cbn in Ty. unfold type_of in Ty. destruct (b_lo (r_bnd r)) as [l|] eqn:El; [|destruct (b_hi (r_bnd r)); discriminate]. unfold lo_or. rewrite El.
    symmetry in Fo. destruct (bound_cases (r_bnd r) (r_val r) Hp) as [(lo & El' & Hu & Eu & _)|[(hi & Eh & Hu & Eu & _)|((A & B) & Eu & _)]].
    + rewrite El in El'. injection El' as <-. rewrite Eu, <- !Rsqr_pow2. symmetry. apply Rsqr_abs.
    + rewrite Fo in Eh. injection Eh as <-. rewrite Eu, <- !Rsqr_pow2. symmetry. apply Rsqr_abs.
    + specialize (A l El). specialize (B l Fo). rewrite Eu, Rabs_R0. replace (r_val r - l) with 0 by lra. reflexivity.
  - apply map_ext_in. intros t Ht. rewrite Forall_forall in Fp. specialize (Fp t Ht). rewrite Forall_forall in Fp. apply rsum_ext. intros r Hr. destruct (Fp r Hr) as (Hw & Hn). rewrite Hw, linear_exact by exact Hn. ring.
Qed.
Print Assumptions C22_unit_weights_partial.

(** ** Calling setup() again (C21) *)
Lemma setup_keeps (p : qp R) : q_x (setup p) = q_x p /\ q_src (setup p) = q_src p /\ q_bnds (setup p) = q_bnds p /\ q_init (setup p) = true /\
  q_lay (setup p) = layout_of (q_src p) (length (q_x p)) (q_bnds p).
Proof. unfold setup, update. cbn [q_init q_lay q_prev q_ndyn q_x q_tab l_dyn]. match goal with |- context [if ?b then _ else _] => destruct b end; repeat split; reflexivity. Qed.
Theorem C21_exact_unchanged : forall p : qp R, reach p -> q_init p = true ->
  q_src (setup p) = q_src p /\ q_x (setup p) = q_x p /\ exact_costs (setup p) = exact_costs p /\ exact_violations (setup p) = exact_violations p.
Proof.
  intros p Re H. pose proof (reach_inv p Re) as I. destruct (setup_keeps p) as (E1 & E2 & E3 & E4 & E5). split; [exact E2|]. split; [exact E1|].
  unfold exact_costs, exact_violations. rewrite E1, E4, E5, H, (iv_lay p I H). split; reflexivity.
Qed.
Print Assumptions C21_exact_unchanged.

(** ** Sample sets *)
Definition free : bnd R := {| b_lo := None; b_hi := None |}.
Definition at_least (v : R) : bnd R := {| b_lo := Some v; b_hi := None |}.
Definition equal_to (v : R) : bnd R := {| b_lo := Some v; b_hi := Some v |}.
(** one row [j . x + k] with coefficient [w] and bounds [b] *)
Definition row_set (dyn : bool) (w : R) (j : srow R) (k : R) (b : bnd R) : term R :=
  {| tm_dyn := dyn; tm_at := fun x => {| cm_rows := 1; cm_vals := [srow_dot j x + k]; cm_coeffs := [w]; cm_jac := [j]; cm_bounds := [b] |}; tm_count := fun _ => 0%nat |}.
Definition empty_set : term R := {| tm_dyn := false; tm_at := fun _ => {| cm_rows := 0; cm_vals := []; cm_coeffs := []; cm_jac := []; cm_bounds := [] |}; tm_count := fun _ => 0%nat |}.
Lemma row_set_wf d w j k b : wf_term (row_set d w j k b).
Proof. unfold wf_term, row_set. cbn. destruct d; reflexivity. Qed.
Lemma empty_wf : wf_term empty_set.
Proof. intros x y. reflexivity. Qed.
Lemma proper_equal v : proper (equal_to v).
Proof. intros l u [= <-] [= <-]. lra. Qed.
Lemma proper_least v : proper (at_least v).
Proof. intros l u _ [=]. Qed.
Lemma type_equal v : type_of (equal_to v) = Equality.
Proof.
  unfold type_of, equal_to. cbn [b_lo b_hi]. change (ndec 1 (-8)) with (1 / 10 ^ 8). rnum. rewrite Rminus_diag_eq, Rabs_R0 by reflexivity.
  destruct (Rltb_spec 0 (1 / 10 ^ 8)) as [L|L]; [reflexivity|]. lra.
Qed.
Lemma row_set_usable ty n x d w j k b : Forall (fun p => (fst p < n)%nat) j -> proper b -> role_type ty (type_of b) -> usable ty n x (row_set d w j k b).
Proof. intros J P Q. split; [repeat split; reflexivity|]. cbn. split; constructor; auto. Qed.
Lemma empty_usable ty n x : usable ty n x empty_set.
Proof. split; [repeat split; reflexivity|]. cbn. split; constructor. Qed.
Lemma viol_least l v : bound_viol (at_least l) v = Rmax 0 (l - v).
Proof.
  rewrite bound_viol_abs. destruct (bound_cases (at_least l) v (proper_least l)) as [(lo & E & Hu & Eu & _)|[(hi & [=] & _)|((A & _) & Eu & _)]]; rewrite Eu.
  - injection E as <-. rewrite Rabs_left, Rmax_right by lra. lra.
  - specialize (A l eq_refl). rewrite Rabs_R0, Rmax_left by lra. reflexivity.
Qed.
Lemma viol_equal l v : bound_viol (equal_to l) v = Rabs (v - l).
Proof.
  rewrite bound_viol_abs. destruct (bound_cases (equal_to l) v (proper_equal l)) as [(lo & [= <-] & Hu & Eu & _)|[(hi & [= <-] & Hu & Eu & _)|((A & B) & Eu & _)]]; rewrite Eu; auto.
  specialize (A l eq_refl). specialize (B l eq_refl). replace (v - l) with 0 by lra. reflexivity.
Qed.

(** a problem with every kind of cost: 2(x-3)^2, 5 max(0, 1-y), |x+y|, and the constraints y >= 2, x = 1/2 *)
Definition c_sq := row_set false 2 [(0%nat, 1)] 0 (equal_to 3).
Definition c_hinge := row_set false 5 [(1%nat, 1)] 0 (at_least 1).
Definition c_abs := row_set true 1 [(0%nat, 1); (1%nat, 1)] 0 (equal_to 0).
Definition k_ge := row_set false 1 [(1%nat, 1)] 0 (at_least 2).
Definition k_eq := row_set true 3 [(0%nat, 1)] 0 (equal_to (1 / 2)).
Definition mixed_src : sources R := {| s_sq := [c_sq]; s_dsq := []; s_hinge := [c_hinge]; s_dhinge := []; s_abs := []; s_dabs := [c_abs]; s_cnt := [k_ge]; s_dcnt := [k_eq] |}.
Definition mixed : qp R := setup (with_src (qp_new [1; 0] [free; free]) mixed_src).
Lemma is_eq_equal v : is_eq (equal_to v) = true.
Proof. unfold is_eq. rewrite type_equal. reflexivity. Qed.
Lemma mixed_reach : reach mixed.
Proof.
  unfold mixed. apply reach_setup; [|reflexivity].
  pose proof (reach_new [1; 0] [free; free] eq_refl) as P0.
  assert (P1 : reach (with_src (qp_new [1; 0] [free; free]) {| s_sq := [c_sq]; s_dsq := []; s_hinge := []; s_dhinge := []; s_abs := []; s_dabs := []; s_cnt := []; s_dcnt := [] |})).
  { eapply reach_cost with (t := c_sq) (k := PSquared); [exact P0|apply row_set_wf|]. unfold add_cost. cbn [c_sq row_set tm_at cm_bounds forallb]. rewrite is_eq_equal. reflexivity. }
  assert (P2 : reach (with_src (qp_new [1; 0] [free; free]) {| s_sq := [c_sq]; s_dsq := []; s_hinge := [c_hinge]; s_dhinge := []; s_abs := []; s_dabs := []; s_cnt := []; s_dcnt := [] |})).
  { eapply reach_cost with (t := c_hinge) (k := PHinge); [exact P1|apply row_set_wf|reflexivity]. }
  assert (P3 : reach (with_src (qp_new [1; 0] [free; free]) {| s_sq := [c_sq]; s_dsq := []; s_hinge := [c_hinge]; s_dhinge := []; s_abs := []; s_dabs := [c_abs]; s_cnt := []; s_dcnt := [] |})).
  { eapply reach_cost with (t := c_abs) (k := PAbsolute); [exact P2|apply row_set_wf|]. unfold add_cost. cbn [c_abs row_set tm_at cm_bounds forallb]. rewrite is_eq_equal. reflexivity. }
  pose proof (reach_cnt _ k_ge P3 (row_set_wf _ _ _ _ _)) as P4. pose proof (reach_cnt _ k_eq P4 (row_set_wf _ _ _ _ _)) as P5. exact P5.
Qed.
Lemma mixed_usable : all_usable mixed.
Proof.
  unfold all_usable. change (length (q_x mixed)) with 2%nat. cbn [mixed_src q_src]. 
  assert (S : q_src mixed = mixed_src) by reflexivity. rewrite S. cbn [objectives hinges absolutes merits s_sq s_dsq s_hinge s_dhinge s_abs s_dabs s_cnt s_dcnt mixed_src app].
  repeat match goal with |- _ /\ _ => split end; repeat (apply Forall_cons || apply Forall_nil);
    apply row_set_usable; try apply proper_equal; try apply proper_least; cbn [role_type]; rewrite ?type_equal; auto.
Qed.
Lemma row_set_rows x d w j k b : term_rows x (row_set d w j k b) = [{| r_jac := j; r_val := srow_dot j x + k; r_bnd := b; r_w := w |}].
Proof. reflexivity. Qed.

(** ** The trust region rows (C13) *)
Lemma projected_closest (b : bnd R) x0 : proper b -> (if lt_lo x0 b then lo_or b x0 else if gt_hi x0 b then hi_or b x0 else x0) = closest b x0.
Proof.
  intros Hp. unfold proper in Hp. destruct b as [[l|] [u|]]; unfold lt_lo, gt_hi, lo_or, hi_or, closest; cbn [b_lo b_hi] in *; rewrite ?nmax_R, ?nmin_R; rnum;
    repeat match goal with |- context [Rltb ?a ?c] => destruct (Rltb_spec a c) end; try specialize (Hp _ _ eq_refl eq_refl);
    unfold Rmax, Rmin; repeat destruct (Rle_dec _ _); lra.
Qed.
Lemma box_row_inside (b : bnd R) x0 d x : proper b -> (inside (box_row b x0 d) x <-> inside b x /\ Rabs (x - closest b x0) <= d).
Proof.
  intros Hp. unfold box_row.
  replace (if lt_lo x0 b then lo_or b x0 else if gt_hi x0 b then hi_or b x0 else x0) with (closest b x0).
  - set (xi := closest b x0). unfold inside. cbn [b_lo b_hi]. destruct b as [[l|] [u|]]; cbn [b_lo b_hi]; rewrite ?nmax_R, ?nmin_R; change (@nadd R R_Num) with Rplus; change (@nsub R R_Num) with Rminus; split.
    all: try (intros (A & B); specialize (A _ eq_refl); specialize (B _ eq_refl);
      repeat match goal with X : Rmax ?a ?c <= _ |- _ => pose proof (Rmax_l a c); pose proof (Rmax_r a c); revert X; generalize dependent (Rmax a c); intros end;
      repeat match goal with X : _ <= Rmin ?a ?c |- _ => pose proof (Rmin_l a c); pose proof (Rmin_r a c); revert X; generalize dependent (Rmin a c); intros end;
      split; [split; intros ? [= <-]; lra|apply Rabs_le; lra]).
    all: intros ((A & B) & C); try specialize (A _ eq_refl); try specialize (B _ eq_refl);
      assert (- d <= x - xi <= d) by (unfold Rabs in C; destruct (Rcase_abs _); lra);
      split; intros ? [= <-]; try apply Rmax_lub; try apply Rmin_glb; lra.
  - symmetry. apply projected_closest, Hp.
Qed.
Lemma in_box_rows bs x0 box c : Forall proper bs -> length bs = length x0 -> length box = length x0 -> c_varb c = map Some (box_rows bs x0 box) -> forall x,
  in_box c x <-> length x = length x0 /\ forall i, (i < length x)%nat ->
    inside (nth i bs free) (nth i x 0) /\ Rabs (nth i x 0 - closest (nth i bs free) (nth i x0 0)) <= nth i box 0.
Proof.
  intros Hp Lb Lx E x. unfold in_box. rewrite E.
  assert (Lr : length (box_rows bs x0 box) = length x0) by (unfold box_rows; rewrite map_length, !combine_length; lia).
  assert (Hr : forall i, (i < length x0)%nat -> nth i (map Some (box_rows bs x0 box)) None = Some (box_row (nth i bs free) (nth i x0 0) (nth i box 0))).
  { intros i Hi. rewrite (nth_map_d Some _ i None free) by lia. f_equal. unfold box_rows. rewrite (map_combine_nth _ _ _ i free (free, 0) 0) by (rewrite ?combine_length; lia).
    rewrite combine_nth by lia. reflexivity. }
  assert (Pr : forall i, (i < length x0)%nat -> proper (nth i bs free)) by (intros i Hi; rewrite Forall_forall in Hp; apply Hp, nth_In; lia).
  rewrite (Forall2_nth_iff _ _ _ 0 None). rewrite map_length, Lr. split; intros (Ll & G); split; auto; intros i Hi; specialize (G i Hi).
  - destruct G as (b & Eb & Gi). rewrite Hr in Eb by lia. injection Eb as <-. apply box_row_inside in Gi; [exact Gi|apply Pr; lia].
  - rewrite Hr by lia. eexists. split; [reflexivity|]. apply box_row_inside; [apply Pr; lia|exact G].
Qed.
Lemma in_box_conv p p' : inv p -> q_init p = true -> convexified p p' -> Forall proper (q_bnds p) -> forall x,
  in_box (q_cvx p') x <-> length x = length (q_x p) /\ forall i, (i < length x)%nat ->
    inside (nth i (q_bnds p) free) (nth i x 0) /\ Rabs (nth i x 0 - closest (nth i (q_bnds p) free) (nth i (q_x p) 0)) <= nth i (q_box p) 0.
Proof. intros I H C Hp. apply in_box_rows; [exact Hp|apply (iv_bnds p I)|apply (iv_box p I H)|apply (cv_varb _ _ C)]. Qed.
(** The variable rows of the QP admit exactly the points within the bounds of the variables and within
    the trust box around the current point moved into those bounds. *)
Theorem C13_qp_trust_region : forall p : qp R, reach p -> q_init p = true -> all_usable p -> Forall proper (q_bnds p) ->
  exists p', convexify sqrt p = Val p' /\ forall x,
    in_box (q_cvx p') x <-> length x = length (q_x p) /\ forall i, (i < length x)%nat ->
      inside (nth i (q_bnds p) free) (nth i x 0) /\ Rabs (nth i x 0 - closest (nth i (q_bnds p) free) (nth i (q_x p) 0)) <= nth i (q_box p) 0.
Proof.
  intros p Re H U Hp. pose proof (reach_inv p Re) as I. destruct (convexify_spec p I H U) as (p' & E & C). exists p'. split; [exact E|]. apply in_box_conv; auto.
Qed.
Print Assumptions C13_qp_trust_region.
(** setBoxSize and scaleBoxSize take effect at once: the QP bounds describe the new box. *)
Theorem C13_qp_resize : forall (p p' : qp R) box k, reach p -> q_init p = true -> Forall proper (q_bnds p) ->
  let near box x := length x = length (q_x p) /\ forall i, (i < length x)%nat ->
    inside (nth i (q_bnds p) free) (nth i x 0) /\ Rabs (nth i x 0 - closest (nth i (q_bnds p) free) (nth i (q_x p) 0)) <= nth i box 0 in
  (set_box p box = Val p' -> forall x, in_box (q_cvx p') x <-> near box x) /\
  (scale_box p k = Val p' -> forall x, in_box (q_cvx p') x <-> near (map (fun b => k * b) (q_box p)) x).
Proof.
  intros p p' box k Re H Hp near. pose proof (reach_inv p Re) as I. pose proof (iv_lay p I H) as El.
  assert (G : forall box', update_box p box' = Val p' -> forall x, in_box (q_cvx p') x <-> near box' x).
  { intros box' E. unfold update_box in E. destruct (_ && _)%bool eqn:B in E; [|discriminate]. injection E as <-. apply andb_prop in B as (B & _). apply andb_prop in B as (B & B2). apply andb_prop in B as (_ & B1). apply Nat.eqb_eq in B1. apply Nat.eqb_eq in B2.
    cbn [q_cvx]. apply in_box_rows; [exact Hp|apply (iv_bnds p I)|congruence|]. cbn [c_varb]. rewrite El. reflexivity. }
  split; intros E; apply G.
  - unfold set_box in E. destruct (_ =? _)%nat; [exact E|discriminate].
  - rewrite <- E. unfold scale_box. f_equal. apply map_ext. intros b. rnum. ring.
Qed.
Print Assumptions C13_qp_resize.

(** ** Examples *)
Lemma free_inside v : inside free v.
Proof. split; intros ? [=]. Qed.
Lemma proper_free : proper free.
Proof. intros l u [=]. Qed.
Lemma closest_free v : closest free v = v.
Proof. reflexivity. Qed.
Lemma mixed_conv : exists p', convexify sqrt mixed = Val p' /\ convexified mixed p'.
Proof. apply convexify_spec; [apply reach_inv, mixed_reach|reflexivity|apply mixed_usable]. Qed.
Lemma mixed_box p' : convexified mixed p' -> in_box (q_cvx p') [1; 0].
Proof.
  intros C. apply (in_box_conv mixed p'); [apply reach_inv, mixed_reach|reflexivity|exact C|repeat (apply Forall_cons; [apply proper_free|]); apply Forall_nil|].
  change (q_x mixed) with [1; 0]. split; [reflexivity|]. change (q_bnds mixed) with [free; free]. change (q_box mixed) with [1 / 10 ^ 1; 1 / 10 ^ 1].
  intros [|[|i]] Hi; [| |cbn in Hi; lia]; cbn [nth]; (split; [apply free_inside|]); rewrite closest_free, Rminus_diag_eq, Rabs_R0 by reflexivity; lra.
Qed.
Lemma mixed_nonneg : nonneg_weights (q_x mixed) (hinges (q_src mixed) ++ absolutes (q_src mixed) ++ merits (q_src mixed)).
Proof. unfold nonneg_weights. change (hinges (q_src mixed) ++ absolutes (q_src mixed) ++ merits (q_src mixed)) with [c_hinge; c_abs; k_ge; k_eq]. repeat apply Forall_cons; try apply Forall_nil; cbn [r_w]; lra. Qed.
Ltac thr_num := match goal with |- context [thr ?v] => rewrite (thr_id v) by (right; unfold Rabs; destruct (Rcase_abs _); lra) end.
Ltac penalty := unfold set_penalty; rewrite row_set_rows, !rsum_cons, rsum_nil; unfold linear, thr_row; cbn [r_jac r_val r_bnd r_w map fst snd]; repeat thr_num; rewrite !srow_dot_R, !rsum_cons, ?rsum_nil; cbn [fst snd nth].
Example C15_ex : exists p', convexify sqrt mixed = Val p' /\ slack_minimum_is (q_cvx p') [1; 0] 41.
Proof.
  destruct mixed_conv as (p' & E & C). destruct (C15_slack_penalty mixed mixed_reach eq_refl mixed_usable mixed_nonneg) as (p'' & E' & S).
  { change (q_merit mixed) with [10; 10]. repeat apply Forall_cons; try apply Forall_nil; lra. }
  rewrite E in E'. injection E' as <-. exists p'. split; [exact E|]. specialize (S [1; 0] eq_refl (mixed_box p' C)). revert S.
  change (hinges (q_src mixed) ++ absolutes (q_src mixed)) with [c_hinge; c_abs]. change (merits (q_src mixed)) with [k_ge; k_eq]. change (q_x mixed) with [1; 0]. change (q_merit mixed) with [10; 10].
  cbn [length seq combine]. rewrite !rsum_cons, !rsum_nil. cbn [fst snd filled firstn filter nonempty length k_ge k_eq row_set tm_at cm_rows negb Nat.eqb nth]. 
  match goal with |- slack_minimum_is _ _ ?v -> _ => replace v with 41; [auto|] end.
  unfold c_hinge, c_abs, k_ge, k_eq. penalty. penalty. penalty. penalty. rewrite !viol_least, !viol_equal.
  unfold Rmax, Rabs. repeat destruct (Rle_dec _ _); repeat destruct (Rcase_abs _); lra.
Qed.
Example C20_ex : exists pm p', set_merit mixed [7; 100] = Val pm /\ convexify sqrt pm = Val p' /\ slack_minimum_is (q_cvx p') [1; 0] (6 + 7 * 2 + 100 * (3 / 2)).
Proof.
  destruct (set_merit mixed [7; 100]) as [pm| |] eqn:Em; [|discriminate Em|discriminate Em].
  assert (Rm : reach pm) by (eapply reach_merit; [apply mixed_reach|exact Em]).
  destruct (C20_merit_by_set_partial mixed mixed_reach eq_refl mixed_usable mixed_nonneg) with (m := [7; 100]) (pm := pm) as (p' & E & S); [|repeat apply Forall_cons; try apply Forall_nil; lra|exact Em|].
  { change (merits (q_src mixed)) with [k_ge; k_eq]. repeat constructor. }
  exists pm, p'. split; [reflexivity|]. split; [exact E|]. injection Em as <-. 
  assert (Um : all_usable {| q_x := q_x mixed; q_bnds := q_bnds mixed; q_src := q_src mixed; q_init := q_init mixed; q_ndyn := q_ndyn mixed; q_prev := q_prev mixed; q_lay := q_lay mixed; q_box := q_box mixed; q_merit := [7; 100]; q_tab := q_tab mixed; q_cvx := q_cvx mixed |}) by exact mixed_usable.
  destruct (convexify_spec _ (reach_inv _ Rm) eq_refl Um) as (p'' & E' & C). rewrite E in E'. injection E' as <-.
  specialize (S [1; 0] eq_refl). revert S. change (hinges (q_src mixed) ++ absolutes (q_src mixed)) with [c_hinge; c_abs]. change (merits (q_src mixed)) with [k_ge; k_eq]. change (q_x mixed) with [1; 0].
  cbn [combine]. rewrite !rsum_cons, !rsum_nil. cbn [fst snd]. intros S.
  match type of S with _ -> slack_minimum_is _ _ ?v => replace v with (6 + 7 * 2 + 100 * (3 / 2)) in S end.
  - apply S. apply (in_box_conv _ p' (reach_inv _ Rm) eq_refl C); [repeat (apply Forall_cons; [apply proper_free|]); apply Forall_nil|]. cbn [q_x q_bnds q_box].
    change (q_x mixed) with [1; 0]. split; [reflexivity|]. change (q_bnds mixed) with [free; free]. change (q_box mixed) with [1 / 10 ^ 1; 1 / 10 ^ 1].
    intros [|[|i]] Hi; [| |cbn in Hi; lia]; cbn [nth]; (split; [apply free_inside|]); rewrite closest_free, Rminus_diag_eq, Rabs_R0 by reflexivity; lra.
  - unfold c_hinge, c_abs, k_ge, k_eq. penalty. penalty. penalty. penalty. rewrite !viol_least, !viol_equal.
    unfold Rmax, Rabs. repeat destruct (Rle_dec _ _); repeat destruct (Rcase_abs _); lra.
Qed.

(** an empty set in front: the set behind it is charged the coefficient of the empty one *)
Definition gap_src : sources R := {| s_sq := []; s_dsq := []; s_hinge := []; s_dhinge := []; s_abs := []; s_dabs := []; s_cnt := [empty_set; row_set false 1 [(0%nat, 1)] 0 (at_least 1)]; s_dcnt := [] |}.
Definition gap : qp R := setup (with_src (qp_new [0] [free]) gap_src).
Lemma one_free_box p p' v d : inv p -> q_init p = true -> convexified p p' -> q_x p = [v] -> q_bnds p = [free] -> q_box p = [d] -> 0 <= d -> in_box (q_cvx p') [v].
Proof.
  intros I H C Ex Eb Ed Hd. apply (in_box_conv p p' I H C); rewrite Eb; [repeat (apply Forall_cons; [apply proper_free|]); apply Forall_nil|]. rewrite Ex, Ed. split; [reflexivity|].
  intros [|i] Hi; [|cbn in Hi; lia]. cbn [nth]. split; [apply free_inside|]. rewrite closest_free, Rminus_diag_eq, Rabs_R0 by reflexivity. exact Hd.
Qed.
Lemma gap_reach : reach gap.
Proof.
  unfold gap. apply reach_setup; [|reflexivity]. pose proof (reach_new [0] [free] eq_refl) as P0.
  pose proof (reach_cnt _ empty_set P0 empty_wf) as P1. exact (reach_cnt _ (row_set false 1 [(0%nat, 1)] 0 (at_least 1)) P1 (row_set_wf _ _ _ _ _)).
Qed.
Theorem C20_merit_by_set_refuted : exists (p : qp R) m pm p' x, reach p /\ all_usable p /\ set_merit p m = Val pm /\ convexify sqrt pm = Val p' /\
  in_box (q_cvx p') x /\ slack_minimum_is (q_cvx p') x 10 /\
  rsum (fun mt => fst mt * set_penalty (q_x p) x (snd mt)) (combine m (merits (q_src p))) = 1000.
Proof.
  destruct (set_merit gap [10; 1000]) as [pm| |] eqn:Em; [|discriminate Em|discriminate Em].
  assert (Rm : reach pm) by (eapply reach_merit; [apply gap_reach|exact Em]).
  assert (Ug : all_usable gap).
  { split; [constructor|]. split; [constructor|]. split; [constructor|]. change (merits (q_src gap)) with [empty_set; row_set false 1 [(0%nat, 1)] 0 (at_least 1)].
    repeat apply Forall_cons; try apply Forall_nil; [apply empty_usable|apply row_set_usable; [repeat constructor|apply proper_least|right; left; reflexivity]]. }
  injection Em as Em. assert (Um : all_usable pm) by (rewrite <- Em; exact Ug).
  assert (Hi : q_init pm = true) by (rewrite <- Em; reflexivity).
  destruct (convexify_spec pm (reach_inv _ Rm) Hi Um) as (p' & E & C).
  assert (B : in_box (q_cvx p') [0]) by (apply (one_free_box pm p' 0 (1 / 10 ^ 1) (reach_inv _ Rm) Hi C); try (rewrite <- Em; reflexivity); lra).
  exists gap, [10; 1000], pm, p', [0]. split; [apply gap_reach|]. split; [exact Ug|]. split; [rewrite <- Em; reflexivity|]. split; [exact E|]. split; [exact B|].
  destruct (C15_slack_penalty pm Rm Hi Um) as (p'' & E' & S).
  - rewrite <- Em. cbn. repeat apply Forall_cons; try apply Forall_nil; cbn; lra.
  - rewrite <- Em. cbn. repeat apply Forall_cons; try apply Forall_nil; lra.
  - rewrite E in E'. injection E' as <-. split.
    + specialize (S [0]). rewrite <- Em in S. specialize (S eq_refl B). revert S. cbn [q_src q_x q_merit].
      change (hinges (gap_src) ++ absolutes (gap_src)) with (@nil (term R)). change (merits (gap_src)) with [empty_set; row_set false 1 [(0%nat, 1)] 0 (at_least 1)].
      change (q_x gap) with [0]. cbn [length seq combine]. rewrite !rsum_cons, !rsum_nil. cbn [fst snd]. change (filled [0] [empty_set; row_set false 1 [(0%nat, 1)] 0 (at_least 1)] 1) with 0%nat. cbn [nth].
      intros S. match type of S with slack_minimum_is _ _ ?v => replace v with 10 in S; [exact S|] end.
      unfold set_penalty at 1. change (term_rows [0] empty_set) with (@nil crow). rewrite rsum_nil. penalty. rewrite viol_least. unfold Rmax. destruct (Rle_dec _ _); lra.
    + change (merits (q_src gap)) with [empty_set; row_set false 1 [(0%nat, 1)] 0 (at_least 1)]. change (q_x gap) with [0]. cbn [combine]. rewrite !rsum_cons, !rsum_nil. cbn [fst snd].
      unfold set_penalty at 1. change (term_rows [0] empty_set) with (@nil crow). rewrite rsum_nil. penalty. rewrite viol_least. unfold Rmax. destruct (Rle_dec _ _); lra.
Qed.
Print Assumptions C20_merit_by_set_refuted.

(** ** Linearised violations: example and counterexample (C16) *)
Example C16_ex : exists p' v, convexify sqrt mixed = Val p' /\ eval_convex_violations p' [1; 0] = Val v /\ exact_violations p' = Val v /\ v = [2; 1 / 2].
Proof.
  destruct (C16_touches_partial mixed mixed_reach eq_refl mixed_usable) as (p' & conv & exact & E & Hc & Hx & _ & Hs).
  destruct mixed_conv as (p'' & E' & C). rewrite E in E'. injection E' as <-. pose proof (cv_keep _ _ C) as (K1 & _).
  specialize (Hc []). rewrite app_nil_r, K1 in Hc. exists p', exact. rewrite Hs in Hc.
  - split; [exact E|]. split; [exact Hc|]. split; [exact Hx|]. rewrite (exact_violations_conv mixed p' (reach_inv _ mixed_reach) eq_refl mixed_usable C) in Hx. injection Hx as <-.
    change (merits (q_src mixed)) with [k_ge; k_eq]. change (q_x mixed) with [1; 0]. cbn [map]. unfold exact_viol, k_ge, k_eq. rewrite !row_set_rows, !rsum_cons, !rsum_nil. cbn [r_bnd r_val].
    rewrite viol_least, viol_equal, !srow_dot_R, !rsum_cons, !rsum_nil. cbn [fst snd nth]. f_equal; [unfold Rmax; destruct (Rle_dec _ _); lra|]. f_equal. unfold Rabs. destruct (Rcase_abs _); lra.
  - change (merits (q_src mixed)) with [k_ge; k_eq]. unfold k_ge, k_eq. repeat apply Forall_cons; try apply Forall_nil; unfold no_small; cbn [r_jac row_set tm_at];
      repeat apply Forall_cons; try apply Forall_nil; right; cbn [snd]; rewrite Rabs_R1; lra.
Qed.
(** the constraint [1e-8 x - 1 = 0] holds at [x = 1e8]; its linearisation there is violated by one *)
Definition tiny : term R := row_set false 1 [(0%nat, / 10 ^ 8)] (- 1) (equal_to 0).
Definition tiny_src : sources R := {| s_sq := []; s_dsq := []; s_hinge := []; s_dhinge := []; s_abs := []; s_dabs := []; s_cnt := [tiny]; s_dcnt := [] |}.
Definition tiny_qp : qp R := setup (with_src (qp_new [10 ^ 8] [free]) tiny_src).
Lemma tiny_reach : reach tiny_qp.
Proof. unfold tiny_qp. apply reach_setup; [|reflexivity]. exact (reach_cnt _ tiny (reach_new [10 ^ 8] [free] eq_refl) (row_set_wf _ _ _ _ _)). Qed.
Lemma tiny_usable : all_usable tiny_qp.
Proof.
  split; [constructor|]. split; [constructor|]. split; [constructor|]. change (merits (q_src tiny_qp)) with [tiny]. apply Forall_cons; [|apply Forall_nil].
  apply row_set_usable; [repeat constructor|apply proper_equal|left; apply type_equal].
Qed.
Theorem C16_touches_refuted : exists (p p' : qp R), reach p /\ all_usable p /\ convexify sqrt p = Val p' /\
  exact_violations p' = Val [0] /\ eval_convex_violations p' (q_x p') = Val [1].
Proof.
  destruct (convexify_spec tiny_qp (reach_inv _ tiny_reach) eq_refl tiny_usable) as (p' & E & C). exists tiny_qp, p'. pose proof (cv_keep _ _ C) as (K1 & _).
  split; [apply tiny_reach|]. split; [apply tiny_usable|]. split; [exact E|]. split.
  - rewrite (exact_violations_conv tiny_qp p' (reach_inv _ tiny_reach) eq_refl tiny_usable C). change (merits (q_src tiny_qp)) with [tiny]. change (q_x tiny_qp) with [10 ^ 8]. cbn [map].
    unfold exact_viol, tiny. rewrite row_set_rows, rsum_cons, rsum_nil. cbn [r_bnd r_val]. rewrite viol_equal, srow_dot_R, rsum_cons, rsum_nil. cbn [fst snd nth].
    replace (/ 10 ^ 8 * 10 ^ 8 + 0 + -1 - 0) with 0 by field. rewrite Rabs_R0. do 2 f_equal. ring.
  - rewrite K1, <- (app_nil_r (q_x tiny_qp)). rewrite (eval_violations_conv tiny_qp p' (reach_inv _ tiny_reach) eq_refl tiny_usable C) by reflexivity.
    change (merits (q_src tiny_qp)) with [tiny]. change (q_x tiny_qp) with [10 ^ 8]. cbn [map]. unfold lin_violation, tiny. rewrite row_set_rows, rsum_cons, rsum_nil. unfold linear, thr_row. cbn [r_bnd r_val r_jac map fst snd].
    assert (Z : thr (/ 10 ^ 8) = 0). { unfold thr. change (ndec 1 (-7)) with (1 / 10 ^ 7). rnum. destruct (Rltb_spec (Rabs (/ 10 ^ 8)) (1 / 10 ^ 7)) as [L|L]; [reflexivity|]. rewrite Rabs_right in L by lra. lra. }
    rewrite Z, viol_equal, !srow_dot_R, !rsum_cons, !rsum_nil. cbn [fst snd nth]. replace (_ - 0) with (-1) by (field). replace (Rabs (-1)) with 1 by (unfold Rabs; destruct (Rcase_abs _); lra). do 2 f_equal. ring.
Qed.
Print Assumptions C16_touches_refuted.

(** ** setup() again: the next QP has lost the static sets (C21) *)
Definition plain_src : sources R := {| s_sq := []; s_dsq := []; s_hinge := []; s_dhinge := []; s_abs := []; s_dabs := []; s_cnt := [row_set false 1 [(0%nat, 1)] 0 (at_least 1)]; s_dcnt := [] |}.
Definition plain : qp R := setup (with_src (qp_new [0] [free]) plain_src).
Lemma plain_reach : reach plain.
Proof. unfold plain. apply reach_setup; [|reflexivity]. exact (reach_cnt _ (row_set false 1 [(0%nat, 1)] 0 (at_least 1)) (reach_new [0] [free] eq_refl) (row_set_wf _ _ _ _ _)). Qed.
Lemma plain_usable : all_usable plain.
Proof.
  split; [constructor|]. split; [constructor|]. split; [constructor|]. change (merits (q_src plain)) with [row_set false 1 [(0%nat, 1)] 0 (at_least 1)]. apply Forall_cons; [|apply Forall_nil].
  apply row_set_usable; [repeat constructor|apply proper_least|right; left; reflexivity].
Qed.
Example C21_ex : exact_violations (setup plain) = exact_violations plain /\ exact_violations plain = Val [1].
Proof.
  destruct (C21_exact_unchanged plain plain_reach eq_refl) as (_ & _ & _ & E). split; [exact E|]. unfold exact_violations. change (l_mer (q_lay plain)) with [row_set false 1 [(0%nat, 1)] 0 (at_least 1)]. change (q_x plain) with [0].
  rewrite (mapr_val _ (exact_viol [0])).
  - cbn [map]. unfold exact_viol. rewrite row_set_rows, rsum_cons, rsum_nil. cbn [r_bnd r_val]. rewrite viol_least, srow_dot_R, rsum_cons, rsum_nil. cbn [fst snd nth]. do 2 f_equal. unfold Rmax. destruct (Rle_dec _ _); lra.
  - intros t [<-|[]]. apply exact_violation_spec. repeat split; reflexivity.
Qed.
Theorem C21_setup_again_refuted : exists p p1 p2 : qp R, reach p /\ q_init p = true /\ all_usable p /\
  convexify sqrt p = Val p1 /\ eval_convex_violations p1 (q_x p) = Val [1] /\
  convexify sqrt (setup p) = Val p2 /\ eval_convex_violations p2 (q_x p) = Val [0] /\
  c_rowb (q_cvx p2) = [None] /\ c_grad (q_cvx p2) = [0].
Proof.
  destruct (convexify_spec plain (reach_inv _ plain_reach) eq_refl plain_usable) as (p1 & E1 & C).
  exists plain, p1. eexists. split; [apply plain_reach|]. split; [reflexivity|]. split; [apply plain_usable|]. split; [exact E1|]. split.
  - rewrite <- (app_nil_r (q_x plain)). rewrite (eval_violations_conv plain p1 (reach_inv _ plain_reach) eq_refl plain_usable C) by reflexivity.
    change (merits (q_src plain)) with [row_set false 1 [(0%nat, 1)] 0 (at_least 1)]. change (q_x plain) with [0]. cbn [map]. unfold lin_violation. rewrite row_set_rows, rsum_cons, rsum_nil. unfold linear, thr_row. cbn [r_bnd r_val r_jac map fst snd].
    thr_num. rewrite viol_least, !srow_dot_R, !rsum_cons, !rsum_nil. cbn [fst snd nth]. do 2 f_equal. unfold Rmax. destruct (Rle_dec _ _); lra.
  - split; [lazy -[Rplus Rmult Rminus Rdiv Ropp IZR pow]; reflexivity|]. repeat split; reflexivity.
Qed.
Print Assumptions C21_setup_again_refuted.

(** ** Penalty costs: counterexample (C22) *)
Definition five : term R := row_set false 5 [(0%nat, 1)] 0 (at_least 1).
Definition five_src : sources R := {| s_sq := []; s_dsq := []; s_hinge := [five]; s_dhinge := []; s_abs := []; s_dabs := []; s_cnt := []; s_dcnt := [] |}.
Definition five_qp : qp R := setup (with_src (qp_new [0] [free]) five_src).
Lemma five_reach : reach five_qp.
Proof. unfold five_qp. apply reach_setup; [|reflexivity]. exact (reach_cost _ five PHinge _ (reach_new [0] [free] eq_refl) (row_set_wf _ _ _ _ _) eq_refl). Qed.
Lemma five_usable : all_usable five_qp.
Proof.
  split; [constructor|]. split; [|split; [constructor|constructor]]. change (hinges (q_src five_qp)) with [five]. apply Forall_cons; [|apply Forall_nil].
  apply row_set_usable; [repeat constructor|apply proper_least|left; reflexivity].
Qed.
(** getExactCosts() reports 1 for a cost the QP charges 5 for, and evaluateConvexCosts() reports 0 at the
    QP solution that has to pay these 5. *)
Theorem C22_weights_refuted : exists (p p' : qp R) s, reach p /\ all_usable p /\ convexify sqrt p = Val p' /\
  exact_costs p' = Val [1] /\ slack_minimum_is (q_cvx p') (q_x p) 5 /\
  qp_feasible (q_cvx p') (q_x p ++ s) /\ vdot (c_grad (q_cvx p')) (q_x p ++ s) = 5 /\ eval_convex_costs p' (q_x p ++ s) = Val [0].
Proof.
  pose proof (reach_inv _ five_reach) as I. destruct (convexify_spec five_qp I eq_refl five_usable) as (p' & E & C). pose proof (cv_keep _ _ C) as (K1 & K2 & K3 & K4 & _).
  assert (B : in_box (q_cvx p') [0]) by (apply (one_free_box five_qp p' 0 (1 / 10 ^ 1) I eq_refl C); try reflexivity; lra).
  assert (I' : inv p') by (apply reach_inv; eapply reach_convexify; [apply five_reach|exact E]).
  assert (U' : all_usable p') by (unfold all_usable; rewrite K1, K3; exact five_usable).
  assert (Q : qp_rows five_qp = [(1, {| r_jac := [(0%nat, 1)]; r_val := srow_dot [(0%nat, 1)] [0] + 0; r_bnd := at_least 1; r_w := 5 |})]) by reflexivity.
  assert (L0 : linear [0] {| r_jac := [(0%nat, 1)]; r_val := srow_dot [(0%nat, 1)] [0] + 0; r_bnd := at_least 1; r_w := 5 |} [0] = 0).
  { unfold linear, thr_row. cbn [r_jac r_val map fst snd]. thr_num. rewrite !srow_dot_R, !rsum_cons, !rsum_nil. cbn [fst snd nth]. ring. }
  assert (F : qp_feasible (q_cvx p') ([0] ++ [1])).
  { apply (feasible_split five_qp p' [0] [1] C I eq_refl five_usable); [reflexivity|rewrite Q; reflexivity|]. split; [exact B|]. rewrite Q. change (q_x five_qp) with [0]. cbn [sfeas snd signs slack_signs type_of at_least b_lo b_hi r_bnd length firstn skipn].
    split; [auto|]. split; [apply Forall_cons; [lra|apply Forall_nil]|]. split; [|reflexivity]. rewrite L0. unfold vdot. cbn. split; [intros l [= <-]; lra|intros u [=]]. }
  pose proof (cv_obj _ _ C) as (q & (_ & _ & _ & Lq & _) & _ & Eg & _).
  assert (N : nonneg_objectives five_qp) by constructor.
  assert (Lg : length ([0] ++ [1]) = length (c_grad (q_cvx p'))) by (rewrite Eg, (app_length (qe_obj_lin q)), Lq, Q; reflexivity).
  exists five_qp, p', [1]. split; [apply five_reach|]. split; [apply five_usable|]. split; [exact E|]. change (q_x five_qp) with [0]. split; [|split; [|split; [exact F|split]]].
  - rewrite (exact_costs_spec p' I' K4 U'), K1, K3. change (objectives (q_src five_qp)) with (@nil (term R)). change (hinges (q_src five_qp) ++ absolutes (q_src five_qp)) with [five]. change (q_x five_qp) with [0]. cbn [map app]. unfold exact_viol, five.
    rewrite row_set_rows, rsum_cons, rsum_nil. cbn [r_bnd r_val]. rewrite viol_least, srow_dot_R, rsum_cons, rsum_nil. cbn [fst snd nth]. do 2 f_equal. unfold Rmax. destruct (Rle_dec _ _); lra.
  - pose proof (slack_minimum_conv five_qp p' [0] I eq_refl five_usable C) as S. rewrite Q in S. unfold penalty_sum in S. rewrite rsum_cons, rsum_nil in S. change (q_x five_qp) with [0] in S. cbn [fst snd r_w r_bnd] in S. rewrite L0, viol_least in S.
    replace 5 with (1 * 5 * Rmax 0 (1 - 0) + 0) by (unfold Rmax; destruct (Rle_dec _ _); lra). apply S; auto; [|constructor].
    change (hinges (q_src five_qp) ++ absolutes (q_src five_qp) ++ merits (q_src five_qp)) with [five]. unfold nonneg_weights. apply Forall_cons; [|apply Forall_nil]. apply Forall_cons; [cbn; lra|apply Forall_nil].
  - assert (Hq : vdot (qe_obj_lin q) [0] = 0).
    { clear -Lq. destruct (qe_obj_lin q) as [|a [|b l]]; try discriminate Lq. unfold vdot. cbn. lra. }
    rewrite Eg, vdot_app by (rewrite Lq; reflexivity). rewrite Hq, Q. unfold vdot, slack_costs. cbn. lra.
  - exact (eval_costs_conv five_qp p' I eq_refl five_usable C N (or_introl eq_refl) [0] [1] eq_refl Lg F).
Qed.
Print Assumptions C22_weights_refuted.

(** one squared, one absolute cost with unit coefficient *)
Definition unit_src : sources R := {| s_sq := [c_sq]; s_dsq := []; s_hinge := []; s_dhinge := []; s_abs := []; s_dabs := [c_abs]; s_cnt := []; s_dcnt := [] |}.
Definition unit_qp : qp R := setup (with_src (qp_new [1; 1] [free; free]) unit_src).
Lemma unit_reach : reach unit_qp.
Proof.
  unfold unit_qp. apply reach_setup; [|reflexivity]. pose proof (reach_new [1; 1] [free; free] eq_refl) as P0.
  assert (P1 : reach (with_src (qp_new [1; 1] [free; free]) {| s_sq := [c_sq]; s_dsq := []; s_hinge := []; s_dhinge := []; s_abs := []; s_dabs := []; s_cnt := []; s_dcnt := [] |})).
  { eapply reach_cost with (t := c_sq) (k := PSquared); [exact P0|apply row_set_wf|]. unfold add_cost. cbn [c_sq row_set tm_at cm_bounds forallb]. rewrite is_eq_equal. reflexivity. }
  eapply reach_cost with (t := c_abs) (k := PAbsolute); [exact P1|apply row_set_wf|]. unfold add_cost. cbn [c_abs row_set tm_at cm_bounds forallb]. rewrite is_eq_equal. reflexivity.
Qed.
Lemma unit_usable : all_usable unit_qp.
Proof.
  split; [|split; [constructor|split; [|constructor]]]; [change (objectives (q_src unit_qp)) with [c_sq]|change (absolutes (q_src unit_qp)) with [c_abs]]; apply Forall_cons; try apply Forall_nil;
    (apply row_set_usable; [repeat constructor|apply proper_equal|apply type_equal]).
Qed.
Example C22_ex : exact_costs unit_qp = Val [8; 2].
Proof.
  rewrite (C22_unit_weights_partial unit_qp unit_reach eq_refl unit_usable).
  - change (objectives (q_src unit_qp)) with [c_sq]. change (hinges (q_src unit_qp) ++ absolutes (q_src unit_qp)) with [c_abs]. change (q_x unit_qp) with [1; 1]. cbn [map app].
    unfold gn_cost, c_sq. rewrite row_set_rows, rsum_cons, rsum_nil. unfold gn, row_target. cbn [r_w r_val r_jac r_bnd equal_to lo_or b_lo]. unfold c_abs. penalty. rewrite viol_equal.
    f_equal. f_equal; [ring|]. f_equal. unfold Rabs. destruct (Rcase_abs _); lra.
  - change (objectives (q_src unit_qp)) with [c_sq]. repeat apply Forall_cons; try apply Forall_nil; reflexivity.
  - change (hinges (q_src unit_qp) ++ absolutes (q_src unit_qp)) with [c_abs]. apply Forall_cons; [|apply Forall_nil]. apply Forall_cons; [|apply Forall_nil]. split; [reflexivity|]. unfold no_small. cbn [r_jac].
    repeat apply Forall_cons; try apply Forall_nil; right; cbn [snd]; rewrite Rabs_R1; lra.
Qed.
Example C84_ex : exists p' k, convexify sqrt unit_qp = Val p' /\ forall a b, Rabs (objective_value p' [a; b] + k - 2 * (a - 3) ^ 2) <= / 10 ^ 7 * (Rabs a + Rabs b) ^ 2.
Proof.
  destruct (C84_gauss_newton unit_qp unit_reach eq_refl unit_usable) as (p' & k & E & H).
  - unfold nonneg_objectives. change (objectives (q_src unit_qp)) with [c_sq]. repeat apply Forall_cons; try apply Forall_nil. cbn. repeat apply Forall_cons; try apply Forall_nil. lra.
  - exists p', k. split; [exact E|]. intros a b. specialize (H [a; b] eq_refl). revert H. change (objectives (q_src unit_qp)) with [c_sq]. change (q_x unit_qp) with [1; 1].
    rewrite !rsum_cons, !rsum_nil. unfold gn_cost, c_sq. rewrite row_set_rows, rsum_cons, rsum_nil. unfold gn, row_target. cbn [r_w r_val r_jac r_bnd equal_to lo_or b_lo]. rewrite !srow_dot_R, !rsum_cons, !rsum_nil. cbn [fst snd nth].
    intros H. replace (objective_value p' [a; b] + k - 2 * (a - 3) ^ 2) with (objective_value p' [a; b] + k - (2 * (1 * 1 + 0 + 0 + (1 * a + 0 - (1 * 1 + 0)) - 3) ^ 2 + 0 + 0)) by ring.
    replace (Rabs a + Rabs b) with (Rabs a + (Rabs b + 0)) by ring. exact H.
Qed.

(** ** evaluateConvexCosts() after convexify() (C85) *)
Theorem C85_defined_partial : forall p : qp R, reach p -> q_init p = true -> all_usable p -> nonneg_objectives p ->
  (objectives (q_src p) = [] \/ (0 < rows_at (q_x p) (objectives (q_src p)))%nat) ->
  exists p', convexify sqrt p = Val p' /\ forall x s, length x = length (q_x p) -> length (x ++ s) = length (c_grad (q_cvx p')) ->
    exists penalties, eval_convex_costs p' (x ++ s) = Val (map (gn_cost (q_x p) x) (objectives (q_src p)) ++ penalties) /\
      length penalties = (length (hinges (q_src p)) + length (absolutes (q_src p)))%nat.
Proof.
  intros p Re H U N Hz. pose proof (reach_inv p Re) as I. destruct (convexify_spec p I H U) as (p' & E & C). exists p'. split; [exact E|].
  intros x s Lx Ls. pose proof (cv_keep _ _ C) as (K1 & K2 & K3 & K4 & K5 & K6 & K7).
  destruct (eval_costs_any p p' I H U C N Hz x s Lx Ls) as (pen & Ep & Lp & _). eauto.
Qed.
Print Assumptions C85_defined_partial.
Example C85_ex : exists p' v, convexify sqrt unit_qp = Val p' /\ eval_convex_costs p' [1; 1; 7; 9] = Val v /\ length v = 2%nat.
Proof.
  destruct (C85_defined_partial unit_qp unit_reach eq_refl unit_usable) as (p' & E & H).
  - unfold nonneg_objectives. change (objectives (q_src unit_qp)) with [c_sq]. repeat apply Forall_cons; try apply Forall_nil. cbn. repeat apply Forall_cons; try apply Forall_nil. lra.
  - right. cbn. lia.
  - destruct (convexify_spec unit_qp (reach_inv _ unit_reach) eq_refl unit_usable) as (p'' & E' & C). rewrite E in E'. injection E' as <-.
    pose proof (cv_obj _ _ C) as (q & (_ & _ & _ & Lq & _) & _ & Eg & _).
    destruct (H [1; 1] [7; 9] eq_refl) as (pen & Ep & Lp).
    + rewrite Eg, (app_length (qe_obj_lin q)), Lq. change (length (slack_costs (qp_rows unit_qp))) with (length (slack_costs [(1, {| r_jac := [(0%nat, 1); (1%nat, 1)]; r_val := srow_dot [(0%nat, 1); (1%nat, 1)] [1; 1] + 0; r_bnd := equal_to 0; r_w := 1 |})])).
      unfold slack_costs. cbn [flat_map snd r_bnd]. unfold signs. cbn [r_bnd]. rewrite type_equal. reflexivity.
    + exists p'. eexists. split; [exact E|]. split; [exact Ep|]. rewrite app_length, Lp, map_length. reflexivity.
Qed.
(** a squared cost without rows and nothing else: evaluateConvexCosts() runs into its assertion *)
Definition hollow : qp R := setup (with_src (qp_new [0] [free]) {| s_sq := [empty_set]; s_dsq := []; s_hinge := []; s_dhinge := []; s_abs := []; s_dabs := []; s_cnt := []; s_dcnt := [] |}).
Theorem C85_defined_refuted : exists p p' : qp R, reach p /\ q_init p = true /\ all_usable p /\ nonneg_objectives p /\ convexify sqrt p = Val p' /\
  length (q_x p) = length (c_grad (q_cvx p')) /\ eval_convex_costs p' (q_x p) = Bad.
Proof.
  exists hollow. eexists. split; [|split; [reflexivity|split; [|split; [|split; [lazy -[Rplus Rmult Rminus Rdiv Ropp IZR pow]; reflexivity|split; reflexivity]]]]].
  - unfold hollow. apply reach_setup; [|reflexivity]. exact (reach_cost _ empty_set PSquared _ (reach_new [0] [free] eq_refl) empty_wf eq_refl).
  - split; [|repeat split; constructor]. apply Forall_cons; [apply empty_usable|constructor].
  - apply Forall_cons; [constructor|constructor].
Qed.
Print Assumptions C85_defined_refuted.
