(** * Properties of trajopt_sqp::IfoptQPProblem *)
From Coq Require Import List ZArith Bool Arith Reals Lra Lia.
From Verif Require Import Num NumFacts RSums IfoptModel IfoptProofs ExprsModel ExprsProps ModelingSpec QpModel QpSpec QpProofs QpSlackProofs QpEvalProofs QpProps QpCaseProps IfoptQpModel IfoptQpProofs.
Import ListNotations.
Local Open Scope R_scope.

(** ** The minimum over the slack variables (C15) *)
Definition iqp_feasible (p : iqp R) (z : list R) : Prop := Forall2 (fun r b => inside b (srow_dot r z)) (iq_mat p) (iq_rowb p ++ iq_varb p ++ iq_slackb p).
Definition in_ibox (p : iqp R) (x : list R) : Prop := Forall2 (fun v b => inside b v) x (iq_varb p).
Definition islack_minimum_is (p : iqp R) (x : list R) (v : R) : Prop :=
  min_over_aux (length (iq_grad p)) (iqp_feasible p) (fun z => vdot (skipn (length x) (iq_grad p)) (skipn (length x) z)) x v.

Lemma forall2_some {A} (P : A -> bnd R -> Prop) l bs : Forall2 P l bs <-> Forall2 (fun a ob => exists b, ob = Some b /\ P a b) l (map Some bs).
Proof.
  split.
  - induction 1; cbn; constructor; eauto.
  - revert bs. induction l as [|a l IH]; intros [|b bs] F; inversion F as [|? ? ? ? (b' & Eb & Hb) F']; subst; constructor; [injection Eb as ->; exact Hb|apply IH, F'].
Qed.
Lemma irows_length p : iinv p -> iusable p -> length (irows p) = iq_ncnt p.
Proof. intros I U. destruct (cnt_rows_length p I U). unfold irows. rewrite combine_length, map_length. lia. Qed.
Lemma irows_snd p (P : crow -> Prop) : Forall (fun r => P (tight r)) (cnt_rows p) -> Forall (fun mr => P (snd mr)) (irows p).
Proof.
  intros F. apply Forall_forall. intros (m, r) Hr. cbn. unfold irows in Hr. apply in_combine_r in Hr. apply in_map_iff in Hr. destruct Hr as (r0 & <- & Hr). rewrite Forall_forall in F. apply F, Hr.
Qed.
Lemma irows_cols p : iinv p -> iusable p -> Forall (fun mr => in_cols (length (iq_x p)) (snd mr)) (irows p).
Proof. intros I U. apply irows_snd. eapply Forall_impl; [|apply (cnt_rows_ok p I U)]. cbn. intros r (H & _). unfold in_cols. cbn. apply thr_row_cols, H. Qed.
Lemma irows_typed p : iinv p -> iusable p -> Forall (fun mr => typed (snd mr)) (irows p).
Proof. intros I U. apply irows_snd. eapply Forall_impl; [|apply (cnt_rows_ok p I U)]. cbn. intros r (_ & H). exact H. Qed.
Lemma ifeasible_split p p' x z : iconv p p' -> iinv p -> iusable p -> length x = length (iq_x p) -> length z = length (slack_costs (irows p)) ->
  (iqp_feasible p' (x ++ z) <-> in_ibox p' x /\ sfeas (iq_x p) x (irows p) z).
Proof.
  intros C I U Lx Lz. pose proof (irows_cols p I U) as Fc. pose proof (ii_n p I) as En.
  assert (Lb : length (iq_varb p') = length (iq_x p)).
  { rewrite (ic_varb _ _ C). apply ibox_rows_length; [apply (ii_bnds p I)|reflexivity|rewrite (ii_box p I); exact En]. }
  unfold iqp_feasible, in_ibox. rewrite !forall2_some, !map_app. rewrite (ic_mat _ _ C), (ic_rowb _ _ C), (ic_slackb _ _ C). rewrite map_map.
  rewrite forall2_split by (rewrite placed_length, map_length; reflexivity).
  pose proof (placed_feasible (iq_x p) x (irows p)) as PF. rewrite Lx in PF. specialize (PF Fc [] z). cbn [length app] in PF. rewrite En.
  assert (Hid : Forall2 (fun r ob => exists b, ob = Some b /\ inside b (srow_dot r (x ++ z))) (map (fun i => [(i, 1)]) (seq 0 (length (iq_x p) + length (slack_costs (irows p)))))
      (map Some (iq_varb p') ++ map Some (repeat {| b_lo := Some 0; b_hi := None |} (length (slack_costs (irows p))))) <->
    Forall2 (fun v ob => exists b, ob = Some b /\ inside b v) x (map Some (iq_varb p')) /\ Forall (fun v => 0 <= v) z).
  { rewrite <- Lx, <- Lz, <- app_length. rewrite identity_rows by (rewrite !app_length, !map_length, repeat_length; lia).
    rewrite forall2_split by (rewrite map_length; lia). rewrite slack_rows_nonneg. reflexivity. }
  rewrite Hid, <- PF. tauto.
Qed.
Lemma irows_penalty p x : iinv p -> iusable p -> penalty_sum (iq_x p) x (irows p) = rsum (fun mr => fst mr * bound_viol (r_bnd (snd mr)) (row_model (iq_x p) (snd mr) x)) (combine (iq_merit p) (cnt_rows p)).
Proof.
  intros I U. destruct (cnt_rows_length p I U) as (_ & L). unfold penalty_sum, irows. rewrite combine_map_r, rsum_map. apply rsum_ext. intros (m, r) _. cbn [fst snd].
  rewrite linear_tight. cbn [tight r_w r_bnd]. ring.
Qed.

(** With [x] fixed inside the trust region, the cheapest slacks cost merit coefficient times distance of
    the linearised row from its bounds, summed over the rows.  The coefficients of the sets play no role. *)
Theorem C15_ifopt_slack_penalty : forall p : iqp R, ireach p -> iusable p -> Forall (fun m => 0 <= m) (iq_merit p) ->
  exists p', iconvexify sqrt p = Val p' /\ forall x, length x = length (iq_x p) -> in_ibox p' x ->
    islack_minimum_is p' x (rsum (fun mr => fst mr * bound_viol (r_bnd (snd mr)) (row_model (iq_x p) (snd mr) x)) (combine (iq_merit p) (cnt_rows p))).
Proof.
  intros p Re U M. pose proof (ireach_inv p Re) as I. destruct (iconvexify_spec p I U) as (p' & E & C). exists p'. split; [exact E|]. intros x Lx B. rewrite <- irows_penalty by assumption.
  destruct (ic_obj _ _ C) as (h & g & _ & _ & _ & _ & Lg & Eg & _). pose proof (ii_n p I) as En.
  assert (K : Forall (fun mr => typed (snd mr) /\ 0 <= fst mr * r_w (snd mr)) (irows p)).
  { pose proof (irows_typed p I U) as T. rewrite Forall_forall in *. intros (m, r) Hm. split; [apply (T _ Hm)|]. unfold irows in Hm. pose proof (in_combine_l _ _ _ _ Hm) as H1. apply in_combine_r in Hm.
    apply in_map_iff in Hm. destruct Hm as (r0 & <- & _). cbn. specialize (M m H1). lra. }
  destruct (slack_minimum (iq_x p) x (irows p) K) as (S1 & z0 & S2 & S3).
  assert (Ll : length (iq_grad p') = (length x + length (slack_costs (irows p)))%nat) by (rewrite Eg, app_length; lia).
  assert (Hg : forall z, vdot (skipn (length x) (iq_grad p')) (skipn (length x) (x ++ z)) = vdot (slack_costs (irows p)) z) by (intros z; rewrite Eg, !skipn_exact by lia; reflexivity).
  assert (L0 : length z0 = length (slack_costs (irows p))).
  { pose proof (placed_feasible (iq_x p) x (irows p)) as PF. rewrite Lx in PF. apply (PF (irows_cols p I U) [] z0) in S2. tauto. }
  unfold islack_minimum_is, min_over_aux. rewrite Ll. split.
  - intros z Lz F. rewrite Hg. apply S1. apply (ifeasible_split p p' x z C I U Lx) in F; [tauto|lia].
  - exists z0. split; [lia|]. split; [|rewrite Hg; exact S3]. apply (ifeasible_split p p' x z0 C I U Lx L0). auto.
Qed.
Print Assumptions C15_ifopt_slack_penalty.
(** The merit coefficients given to setConstraintMeritCoeff are those charged after the next convexify(). *)
Theorem C15_ifopt_merit : forall (p : iqp R) m, ireach p -> iusable p -> length m = iq_ncnt p -> Forall (fun m => 0 <= m) m ->
  exists p1 p', iset_merit p m = Val p1 /\ iconvexify sqrt p1 = Val p' /\ forall x, length x = length (iq_x p) -> in_ibox p' x ->
    islack_minimum_is p' x (rsum (fun mr => fst mr * bound_viol (r_bnd (snd mr)) (row_model (iq_x p) (snd mr) x)) (combine m (cnt_rows p))).
Proof.
  intros p m Re U L M. unfold iset_merit. rewrite L, Nat.eqb_refl. set (p1 := {| iq_x := _ |}).
  assert (Re1 : ireach p1) by (apply (ir_merit p m p1 Re); unfold iset_merit; rewrite L, Nat.eqb_refl; reflexivity).
  destruct (C15_ifopt_slack_penalty p1 Re1 U M) as (p' & E & H). exists p1, p'. auto.
Qed.
Print Assumptions C15_ifopt_merit.

(** ** Violations (C16) *)
Lemma viols_rows (rs : list crow) (f : crow -> R) vs : vs = map f rs -> bounds_violations (map r_bnd rs) vs = Val (map (fun r => bound_viol (r_bnd r) (f r)) rs).
Proof.
  intros ->. unfold bounds_violations. rewrite sized_val by (rewrite !map_length; reflexivity). f_equal. induction rs as [|r rs IH]; [reflexivity|]. cbn [map combine fst snd]. rewrite IH. reflexivity.
Qed.
Lemma conv_comps p p' : iconv p p' -> icomps p' = icomps p /\ istack p' = istack p.
Proof. intros C. unfold istack, icomps. rewrite (ic_x _ _ C), (ic_cnts _ _ C). auto. Qed.
(** evaluateConvexConstraintViolations gives the violations of the linearised rows; at the current
    values they are exactly those that getExactConstraintViolations reports. *)
Theorem C16_ifopt_violations : forall p : iqp R, ireach p -> iusable p ->
  exists p', iconvexify sqrt p = Val p' /\
    (forall x s, length x = length (iq_x p) -> ieval_violations p' (x ++ s) = Val (map (fun r => bound_viol (r_bnd r) (row_model (iq_x p) r x)) (cnt_rows p))) /\
    (forall s, ieval_violations p' (iq_x p ++ s) = iexact_violations p') /\
    iexact_violations p' = Val (map (fun r => bound_viol (r_bnd r) (r_val r)) (cnt_rows p)).
Proof.
  intros p Re U. pose proof (ireach_inv p Re) as I. destruct (iconvexify_spec p I U) as (p' & E & C). exists p'. split; [exact E|].
  destruct (conv_comps _ _ C) as (C1 & C2). destruct (cnt_rows_parts p U) as (E1 & E2 & E3). pose proof (ii_n p I) as En. destruct (cnt_rows_length p I U) as (Lr & Lm).
  assert (V : forall x s, length x = length (iq_x p) -> ieval_violations p' (x ++ s) = Val (map (fun r => bound_viol (r_bnd r) (row_model (iq_x p) r x)) (cnt_rows p))).
  { intros x s Lx. unfold ieval_violations. rewrite C2. unfold istack. rewrite ct_bounds_flat, <- E3. apply viols_rows.
    rewrite (ic_kconst _ _ C), (ic_n _ _ C), (ic_ncnt _ _ C), (ic_mat _ _ C). rewrite firstn_exact by (rewrite placed_length; apply irows_length; assumption). rewrite firstn_exact by congruence.
    unfold irows. rewrite block_placed; [|rewrite En; eapply Forall_impl; [|apply (cnt_rows_ok p I U)]; cbn; tauto|exact Lm].
    unfold jac_mul, vzip. clear. induction (cnt_rows p) as [|r rs IH]; [reflexivity|]. cbn [map combine fst snd]. rewrite IH. f_equal. unfold row_model, rconst. cbn [tight r_val r_jac]. rnum. ring. }
  assert (X : iexact_violations p' = Val (map (fun r => bound_viol (r_bnd r) (r_val r)) (cnt_rows p))).
  { unfold iexact_violations. rewrite C2. unfold istack. rewrite ct_values_spec by (apply usable_comps, U). cbn [rbind]. rewrite ct_bounds_flat, <- E3. apply (viols_rows _ r_val). symmetry. exact E2. }
  split; [exact V|]. split; [|exact X]. intros s. rewrite X, V by reflexivity. f_equal. apply map_ext. intros r. f_equal. unfold row_model. ring.
Qed.
Print Assumptions C16_ifopt_violations.

(** ** Trust region (C13) *)
Lemma ibox_row_inside (b : bnd R) x bi v : proper b -> (inside (ibox_row b x bi) v <-> inside b v /\ Rabs (v - closest b x) <= bi).
Proof.
  intros Hp. assert (E : ibox_row b x bi = box_row b x bi).
  { unfold ibox_row, box_row. assert (X : match b_lo b with Some l => nmax match b_hi b with Some u => nmin x u | None => x end l | None => match b_hi b with Some u => nmin x u | None => x end end = closest b x).
    { unfold closest. unfold proper in Hp. destruct (b_lo b) as [l|], (b_hi b) as [u|]; try reflexivity. specialize (Hp l u eq_refl eq_refl). rewrite !nmin_R, !nmax_R, ?nmin_R. unfold Rmin, Rmax. repeat destruct (Rle_dec _ _); lra. }
    rewrite X, (projected_closest b x Hp). reflexivity. }
  rewrite E. apply box_row_inside, Hp.
Qed.
(** inside the bounds and at most [box] away from the projection of [x0] *)
Definition near (bs : list (bnd R)) (x0 box x : list R) : Prop := length x = length x0 /\ forall i, (i < length x)%nat ->
  inside (nth i bs free) (nth i x 0) /\ Rabs (nth i x 0 - closest (nth i bs free) (nth i x0 0)) <= nth i box 0.
Lemma in_box_rows bs x0 box x : Forall proper bs -> length bs = length x0 -> length box = length x0 ->
  (Forall2 (fun v b => inside b v) x (ibox_rows bs x0 box) <-> near bs x0 box x).
Proof.
  intros Hp Lb Lx. assert (Lr : length (ibox_rows bs x0 box) = length x0) by (apply ibox_rows_length; congruence).
  assert (Hr : forall i, (i < length x0)%nat -> nth i (ibox_rows bs x0 box) free = ibox_row (nth i bs free) (nth i x0 0) (nth i box 0)).
  { intros i Hi. unfold ibox_rows. rewrite (map_combine_nth _ _ _ i free (free, 0) 0) by (rewrite ?combine_length; lia). rewrite combine_nth by lia. reflexivity. }
  assert (Pr : forall i, (i < length x0)%nat -> proper (nth i bs free)) by (intros i Hi; rewrite Forall_forall in Hp; apply Hp, nth_In; lia).
  rewrite (Forall2_nth_iff _ _ _ 0 free). rewrite Lr. unfold near. split; intros (Ll & G); split; auto; intros i Hi; specialize (G i Hi).
  - rewrite Hr in G by lia. apply ibox_row_inside in G; [exact G|apply Pr; lia].
  - rewrite Hr by lia. apply ibox_row_inside; [apply Pr; lia|exact G].
Qed.
Theorem C13_ifopt_trust_region : forall p : iqp R, ireach p -> iusable p -> Forall proper (iq_bnds p) ->
  exists p', iconvexify sqrt p = Val p' /\ forall x, in_ibox p' x <-> near (iq_bnds p) (iq_x p) (iq_box p) x.
Proof.
  intros p Re U Hp. pose proof (ireach_inv p Re) as I. destruct (iconvexify_spec p I U) as (p' & E & C). exists p'. split; [exact E|]. intros x. unfold in_ibox. rewrite (ic_varb _ _ C).
  apply in_box_rows; [exact Hp|apply (ii_bnds p I)|rewrite (ii_box p I); apply (ii_n p I)].
Qed.
Print Assumptions C13_ifopt_trust_region.
(** setBoxSize and scaleBoxSize take effect at once: the QP bounds describe the new box. *)
Theorem C13_ifopt_resize : forall (p p' : iqp R) box k, ireach p -> Forall proper (iq_bnds p) ->
  (iset_box p box = Val p' -> forall x, in_ibox p' x <-> near (iq_bnds p) (iq_x p) box x) /\
  (iscale_box p k = Val p' -> forall x, in_ibox p' x <-> near (iq_bnds p) (iq_x p) (map (fun b => k * b) (iq_box p)) x).
Proof.
  intros p p' box k Re Hp. pose proof (ireach_inv p Re) as I. pose proof (ii_n p I) as En.
  assert (G : forall box', iupdate_box p box' = Val p' -> forall x, in_ibox p' x <-> near (iq_bnds p) (iq_x p) box' x).
  { intros box' E x. unfold iupdate_box in E. destruct (_ && _)%bool eqn:B in E; [|discriminate]. injection E as <-. apply andb_prop in B as (B & _). apply andb_prop in B as (_ & B). apply Nat.eqb_eq in B.
    unfold in_ibox. cbn [iq_varb]. apply in_box_rows; [exact Hp|apply (ii_bnds p I)|congruence]. }
  split; intros E; apply G; [exact E|]. rewrite <- E. unfold iscale_box. f_equal. apply map_ext. intros b. rnum. ring.
Qed.
Print Assumptions C13_ifopt_resize.

(** ** Convex costs (C86) *)
(** The change the Gauss-Newton model predicts for the step [d], over the rows of all cost sets: twice
    weight times error times slope, plus absolute weight times square of slope. *)
Definition step_change (rs : list crow) (d : list R) : R :=
  rsum (fun r => 2 * (r_w r * err r) * srow_dot (r_jac r) d + Rabs (r_w r) * srow_dot (r_jac r) d ^ 2) rs.
Definition vplus (x d : list R) : list R := map (fun q => fst q + snd q) (combine x d).
Lemma vplus_nth x d i : length d = length x -> nth i (vplus x d) 0 = nth i x 0 + nth i d 0.
Proof.
  intros L. unfold vplus. destruct (Nat.lt_ge_cases i (length x)) as [H|H]; [rewrite (map_combine_nth _ x d i 0 0 0) by lia; reflexivity|].
  rewrite !nth_overflow by (rewrite ?map_length, ?combine_length; lia). ring.
Qed.
Lemma vplus_length x d : length d = length x -> length (vplus x d) = length x.
Proof. intros L. unfold vplus. rewrite map_length, combine_length. lia. Qed.
Lemma qform_qbil n h y : qform n h y = qbil n h y y.
Proof. reflexivity. Qed.

(** Every convex cost agrees with the exact cost at the current values, and moves away from it by the
    change predicted for the sum of all costs, up to 1e-7 times the square of the step's 1-norm. *)
Theorem C86_convex_costs : forall p : iqp R, ireach p -> iusable p ->
  exists p', iconvexify sqrt p = Val p' /\ iexact_costs p' = Val (map (exact_cost (iq_x p)) (iq_costs p)) /\
    (forall s, ieval_costs p' (iq_x p ++ s) = map (exact_cost (iq_x p)) (iq_costs p)) /\
    forall d s, length d = length (iq_x p) -> exists delta,
      ieval_costs p' (vplus (iq_x p) d ++ s) = map (fun kt => exact_cost (iq_x p) kt + delta) (iq_costs p) /\
      Rabs (delta - step_change (cost_rows p) d) <= / 10 ^ 7 * (rsum Rabs d) ^ 2.
Proof.
  intros p Re U. pose proof (ireach_inv p Re) as I. destruct (iconvexify_spec p I U) as (p' & E & C). exists p'. split; [exact E|].
  destruct (ic_obj _ _ C) as (h & g & Eh & Sq & Sy & Vh & Lg & Eg & Vg & Ec). pose proof (ii_n p I) as En.
  assert (Sq' : square_mat (iq_n p) (iq_hess p')) by (rewrite Eh; apply thr_square, Sq). assert (Sy' : sym_mat (iq_n p) (iq_hess p')) by (rewrite Eh; apply thr_sym, Sy).
  assert (V : forall y s, length y = length (iq_x p) -> ieval_costs p' (y ++ s) =
    map (fun kt => exact_cost (iq_x p) kt + ((qbil (iq_n p) (iq_hess p') y y + vdot g y) - (qbil (iq_n p) (iq_hess p') (iq_x p) (iq_x p) + vdot g (iq_x p)))) (iq_costs p)).
  { intros y s Ly. unfold ieval_costs. rewrite (ic_ncost _ _ C), Ec. destruct (Nat.eqb_spec (iq_ncost p) 0) as [Z|Z].
    - rewrite (ii_ncost p I) in Z. destruct (iq_costs p); [reflexivity|discriminate].
    - rewrite !map_map. apply map_ext. intros kt. rewrite (ic_n _ _ C), Eg, !firstn_exact by congruence. rewrite (qbil_mat_vec (iq_n p)) by congruence. rewrite (vdot_comm y g). rnum. ring. }
  split.
  { unfold iexact_costs, cost_values. rewrite (ic_x _ _ C), (ic_costs _ _ C). apply mapr_val. intros kt Hk. apply cost_value_spec. destruct U as (_ & _ & U). rewrite Forall_forall in U. apply U, Hk. }
  split. { intros s. rewrite V by reflexivity. apply map_ext. intros kt. ring. }
  intros d s Ld. eexists. split; [apply V, vplus_length, Ld|].
  rewrite (qbil_add _ _ (iq_x p) d) by (intros; apply vplus_nth, Ld). rewrite (qbil_sym _ _ (iq_x p) d Sy').
  assert (Vp : vdot g (vplus (iq_x p) d) = vdot g (iq_x p) + vdot g d).
  { rewrite !(vdot_bigsum (iq_n p)) by (rewrite ?vplus_length; congruence). rewrite <- bigsum_plus. apply bigsum_ext. intros i Hi. rewrite vplus_nth by exact Ld. ring. }
  rewrite Vp, (Vg d) by congruence.
  assert (Sc : step_change (cost_rows p) d = rsum (fun r => 2 * werr r * srow_dot (r_jac r) d) (cost_rows p) + qform (iq_n p) h d).
  { rewrite Vh by congruence. rewrite <- rsum_plus. apply rsum_ext. intros r _. unfold werr, err. ring. }
  rewrite Sc. replace (_ - _) with (qbil (iq_n p) (iq_hess p') d d - qform (iq_n p) h d) by ring. rewrite <- qform_qbil, Eh. replace (iq_n p) with (length d) by congruence. apply qform_thr.
Qed.
Print Assumptions C86_convex_costs.
