(** * A run of TrustRegionSQPSolver::solve through OSQP: what holds in every pass of the loops *)
From Coq Require Import List ZArith Bool Arith Lia Reals Lra.
From Verif Require Import Num NumFacts RSums Common IfoptModel IfoptProofs ExprsModel ModelingModel QpModel QpSpec QpProofs QpEvalProofs QpProps QpCaseProps OsqpModel OsqpProps SqpRunModel SqpRunSpec SqpRunQpProofs.
From Verif Require SqpModel SqpProofs SqpRProofs.
Import ListNotations.
Local Open Scope R_scope.

Section Run.
  Context {C : Type} (L : lib) (p0 : qp R) (eps delta : R).
  Hypothesis Hp : problem_ok p0.
  Hypothesis Ha : accepts L.
  Hypothesis Hs : sized L.
  Local Notation n := (length (q_x p0)).
  Local Notation src := (q_src p0).
  Local Notation world := (world C).

  (** ** The QP problem and the QP solver *)
  Record based (p : qp R) : Prop := { ba_reach : reach p; ba_init : q_init p = true; ba_src : q_src p = src; ba_bnds : q_bnds p = q_bnds p0; ba_len : length (q_x p) = n }.
  Definition fits (p : qp R) (s : solver R) : Prop :=
    data_ok (qp_data p) /\ o_nv s = d_cols (qp_data p) /\ o_nc s = length (d_mat (qp_data p)) /\ o_status s <> Uninitialized.
  (** between two calls *)
  Definition winv (w : world) : Prop := exists p s, w_state w = Ok (p, s) /\ based p /\ (o_status s = Uninitialized \/ fits p s).
  Definition wfit (w : world) : Prop := exists p s, w_state w = Ok (p, s) /\ based p /\ fits p s.
  (** after convexify() at [x], with the box [box] and the coefficients [mu] *)
  Definition wat (x box mu : list R) (w : world) : Prop := exists pc p s, w_state w = Ok (p, s) /\ based pc /\ q_x pc = x /\ q_box pc = box /\ q_merit pc = mu /\
    convexified pc p /\ based p /\ kept (qp_data p) (d_lo (qp_data p)) (d_hi (qp_data p)) s.

  Lemma based_inv p : based p -> inv p.
  Proof. intros B. apply reach_inv, B. Qed.
  Lemma based_usable p : based p -> all_usable p /\ nonneg_objectives p /\ (objectives (q_src p) = [] \/ (0 < rows_at (q_x p) (objectives (q_src p)))%nat) /\
    (length (merits (q_src p)) <= n + rows_at (q_x p) (penalties (q_src p)) + rows_at (q_x p) (merits (q_src p)))%nat.
  Proof.
    intros B. destruct Hp as (_ & _ & _ & A). specialize (A (q_x p) (ba_len p B)). destruct A as (A1 & A2 & A3 & A4).
    unfold all_usable, nonneg_objectives in *. cbn [set_variables q_x q_src] in *. rewrite (ba_src p B). auto.
  Qed.
  Lemma based_vars p x : based p -> length x = n -> based (set_variables p x).
  Proof. intros B Lx. constructor; try apply B; [|exact Lx]. apply reach_vars; [apply B|]. rewrite Lx. symmetry. apply B. Qed.
  Lemma set_box_ok p box : based p -> length box = n -> exists p', set_box p box = Val p' /\ based p' /\ q_x p' = q_x p /\ q_box p' = box /\ q_merit p' = q_merit p /\
    p' = {| q_x := q_x p; q_bnds := q_bnds p; q_src := q_src p; q_init := q_init p; q_ndyn := q_ndyn p; q_prev := q_prev p;
             q_lay := q_lay p; q_box := box; q_merit := q_merit p; q_tab := q_tab p;
             q_cvx := {| c_target := c_target (q_cvx p); c_const := c_const (q_cvx p); c_nlp := c_nlp (q_cvx p); c_hess := c_hess (q_cvx p); c_grad := c_grad (q_cvx p);
                         c_mat := c_mat (q_cvx p); c_rowb := c_rowb (q_cvx p);
                         c_varb := map Some (box_rows (q_bnds p) (q_x p) box); c_slackb := c_slackb (q_cvx p) |} |}.
  Proof.
    intros B Lb. pose proof (based_inv p B) as I. pose proof (ba_init p B) as H. destruct (iv_tab p I H) as (y & _ & _ & _ & _ & _ & Lv).
    assert (E : exists p', set_box p box = Val p'). { unfold set_box, update_box. rewrite (iv_lay p I H). cbn [l_n l_vbnds layout_of]. rewrite Lb, (ba_len p B), Lv, (iv_bnds p I), (ba_len p B), !Nat.eqb_refl. cbn [andb]. eauto. }
    destruct E as (p' & E). exists p'. split; [exact E|]. pose proof (reach_box p box p' (ba_reach p B) E) as Re. unfold set_box in E. rewrite Lb, (ba_len p B), Nat.eqb_refl in E.
    pose proof (update_box_inv p p' box E) as (E1 & E2 & E3 & E4 & _ & _ & _ & E8 & _ & E9 & _).
    split; [constructor; [exact Re|rewrite E4; exact H|rewrite E3; apply B|rewrite E2; apply B|rewrite E1; apply B]|]. split; [exact E1|]. split; [exact E8|]. split; [exact E9|].
    unfold update_box in E. destruct (_ && _)%bool in E; [|discriminate]. injection E as <-. rewrite (iv_lay p I H) at 2. reflexivity.
  Qed.
  Lemma set_merit_ok p mu : based p -> length mu = length (merits src) -> exists p', set_merit p mu = Val p' /\ based p' /\ q_x p' = q_x p /\ q_box p' = q_box p /\ q_merit p' = mu.
  Proof.
    intros B Lm. assert (E : exists p', set_merit p mu = Val p'). { unfold set_merit. rewrite (ba_src p B), Lm. unfold merits. rewrite app_length, Nat.eqb_refl. eauto. }
    destruct E as (p' & E). exists p'. split; [exact E|]. pose proof (reach_merit p mu p' (ba_reach p B) E) as Re. unfold set_merit in E. destruct (_ =? _)%nat; [|discriminate]. injection E as <-.
    split; [constructor; [exact Re|apply B..]|]. repeat split.
  Qed.
  Lemma wat_fit x box mu w : wat x box mu w -> wfit w.
  Proof.
    intros (pc & p & s & E & Bc & _ & _ & _ & Cv & B & (_ & K1 & K2 & K3)). exists p, s. split; [exact E|]. split; [exact B|]. split; [|auto].
    apply (data_conv pc p (based_inv _ Bc) (ba_init _ Bc) Cv).
  Qed.
  Lemma wfit_inv w : wfit w -> winv w.
  Proof. intros (p & s & A). exists p, s. tauto. Qed.

  Lemma rows_count p : based p -> length (qp_rows p) = (rows_at (q_x p) (penalties (q_src p)) + rows_at (q_x p) (merits (q_src p)))%nat.
  Proof.
    intros B. destruct (based_usable p B) as ((_ & U2 & U3 & U4) & _). unfold qp_rows. rewrite !app_length, (one_rows_length _ IHinge _ _ U2), (one_rows_length _ IAbsolute _ _ U3), (merit_rows_length _ _ _ _ U4).
    unfold penalties. rewrite rows_at_app. lia.
  Qed.
  Lemma convexify_world x box mu w : winv w -> length x = n -> length box = n -> length mu = length (merits src) -> wat x box mu (w_convexify L w x box mu).
  Proof.
    intros (p & s & Ew & B & St) Lx Lb Lm. unfold w_convexify. rewrite Ew. cbn [obind].
    destruct (set_box_ok (set_variables p x) box (based_vars p x B Lx) Lb) as (p1 & E1 & B1 & X1 & Y1 & _). rewrite E1. cbn [rbind].
    destruct (set_merit_ok p1 mu B1 Lm) as (pc & E2 & Bc & X2 & Y2 & Z2). rewrite E2. cbn [rbind]. rewrite Y1 in Y2. rewrite X1 in X2. cbn [set_variables q_x] in X2.
    destruct (based_usable pc Bc) as (U & _ & _ & Lr). destruct (convexify_spec pc (based_inv _ Bc) (ba_init _ Bc) U) as (p' & E3 & Cv). rewrite E3. cbn [of_res obind].
    destruct (data_conv pc p' (based_inv _ Bc) (ba_init _ Bc) Cv) as (Dk & _ & Dm).
    destruct (prepare_kept (l_oks L (w_calls w)) (length (c_grad (q_cvx p)), length (c_mat (q_cvx p))) (qp_data p') s Dk) as (s' & E4 & K).
    { destruct St as [St|(_ & N1 & N2 & N3)]; [left; exact St|]. right. right. cbn [fst snd]. cbn [qp_data d_cols d_mat] in N1, N2. auto. }
    rewrite E4. cbn [obind]. destruct (C112_start pc (ba_reach _ Bc) (ba_init _ Bc) U) as (p'' & E3' & W). rewrite E3 in E3'. injection E3' as <-.
    destruct W as (z & -> & _). { cbn [qp_data d_mat] in Dm. rewrite Dm, (rows_count pc Bc). pose proof (ba_len pc Bc). lia. }
    cbn [of_res obind]. exists pc, p', s'. split; [reflexivity|]. split; [exact Bc|]. split; [exact X2|]. split; [exact Y2|]. split; [exact Z2|]. split; [exact Cv|]. split; [|exact K].
    pose proof (cv_keep _ _ Cv) as (K1 & K2 & K3 & K4 & _). constructor; [exact (reach_convexify pc p' (ba_reach _ Bc) E3)|exact K4|rewrite K3; apply Bc|rewrite K2; apply Bc|rewrite K1; apply Bc].
  Qed.
  Lemma bounds_fit x box w : wfit w -> length x = n -> length box = n -> wfit (w_bounds L w x box).
  Proof.
    intros (p & s & Ew & B & (D1 & D2 & D3 & D4) & N1 & N2 & N3) Lx Lb. unfold w_bounds. rewrite Ew. cbn [obind]. set (p1 := set_variables p x).
    destruct (set_box_ok p1 box (based_vars p x B Lx) Lb) as (p' & E1 & B1 & _ & _ & _ & Ep). rewrite E1. cbn [of_res obind].
    pose proof (based_inv _ (based_vars p x B Lx)) as I. destruct (iv_tab _ I (ba_init _ (based_vars p x B Lx))) as (y & _ & _ & _ & _ & _ & Lv).
    assert (Ll : length (d_lo (qp_data p')) = length (d_mat (qp_data p)) /\ length (d_hi (qp_data p')) = length (d_mat (qp_data p))).
    { rewrite Ep. cbn [qp_data d_lo d_hi d_mat q_cvx c_rowb c_varb c_slackb c_mat] in *. rewrite map_length, !app_length, !map_length in D3, D4 |- *. cbn [set_variables q_cvx q_x q_bnds] in Lv.
      unfold p1. cbn [set_variables q_cvx q_x q_bnds]. unfold box_rows. rewrite !map_length, !combine_length. pose proof (iv_bnds _ I) as Lq. cbn [set_variables q_bnds q_x] in Lq. rewrite !app_length, !map_length, !combine_length. lia. }
    destruct Ll as (L1 & L2). unfold update_bnds. rewrite L1, L2, N2, !Nat.eqb_refl. cbn [andb obind snd]. exists p'. eexists. split; [reflexivity|]. split; [exact B1|].
    split; [|cbn [o_nv o_nc o_status]; split; [rewrite Ep; exact N1|split; [rewrite Ep; first [exact N2|reflexivity]|exact N3]]]. unfold data_ok. rewrite Ep in L1, L2 |- *. unfold p1. split; [exact D1|]. split; [exact D2|]. split; [exact L1|exact L2].
  Qed.
  Lemma bounds_world x box box' mu w : wat x box mu w -> length box' = n -> wat x box' mu (w_bounds L w x box').
  Proof.
    intros (pc & p & s & Ew & Bc & X & Y & Z & Cv & B & K) Lb. pose proof K as (Ks & N1 & N2 & N3). pose proof (cv_keep _ _ Cv) as (K1 & K2 & K3 & K4 & K5 & K6 & K7).
    assert (Lx : length x = n) by (rewrite <- X; apply Bc).
    unfold w_bounds. rewrite Ew. cbn [obind]. set (p1 := set_variables p x).
    destruct (set_box_ok p1 box' (based_vars p x B Lx) Lb) as (p' & E1 & B1 & _ & _ & _ & Ep). rewrite E1. cbn [of_res obind].
    destruct (set_box_ok pc box' Bc Lb) as (pc' & _ & Bc' & X' & Y' & Z' & Epc).
    assert (Cv' : convexified pc' p').
    { rewrite Epc, Ep. unfold p1. constructor; cbn [set_variables q_x q_bnds q_src q_init q_lay q_box q_merit q_tab q_cvx c_const c_rowb c_varb c_slackb c_mat c_nlp c_grad c_hess]; try apply Cv.
      - rewrite X, K2, K3, K4, K5, K7. auto 8.
      - rewrite K2, X. reflexivity. }
    destruct (data_conv pc' p' (based_inv _ Bc') (ba_init _ Bc') Cv') as ((_ & _ & D3 & D4) & _).
    assert (Em : d_mat (qp_data p') = d_mat (qp_data p) /\ d_hess (qp_data p') = d_hess (qp_data p) /\ d_grad (qp_data p') = d_grad (qp_data p) /\ d_cols (qp_data p') = d_cols (qp_data p)) by (rewrite Ep; auto).
    destruct Em as (M1 & M2 & M3 & M4). unfold update_bnds. rewrite D3, D4, M1, N2, !Nat.eqb_refl. cbn [andb obind snd]. rewrite Ha. replace (if o_ready s then true else true) with true by (destruct (o_ready s); reflexivity).
    exists pc', p'. eexists. split; [reflexivity|]. split; [exact Bc'|]. split; [congruence|]. split; [exact Y'|]. split; [congruence|]. split; [exact Cv'|]. split; [exact B1|].
    unfold kept, asked in *. cbn [o_hess o_grad o_mat o_bnd o_nv o_nc o_status]. rewrite M1, M2, M3, M4. destruct Ks as (A1 & A2 & A3 & _). repeat split; auto.
  Qed.

  (** ** Evaluations *)
  Lemma exact_at p x : based p -> length x = n ->
    exact_costs (set_variables p x) = Val (map (exact_square x) (objectives src) ++ map (exact_viol x) (penalties src)) /\
    exact_violations (set_variables p x) = Val (map (exact_viol x) (merits src)).
  Proof.
    intros B Lx. pose proof (based_vars p x B Lx) as Bx. destruct (based_usable _ Bx) as (U & _). pose proof (based_inv _ Bx) as I. split.
    - rewrite (exact_costs_spec _ I (ba_init _ Bx) U). cbn [set_variables q_x q_src]. rewrite (ba_src _ B). reflexivity.
    - unfold exact_violations. rewrite (iv_lay _ I (ba_init _ Bx)). cbn [l_mer layout_of set_variables q_x q_src]. rewrite (ba_src _ B). apply mapr_val. intros t Ht. apply exact_violation_spec.
      destruct U as (_ & _ & _ & U). cbn [set_variables q_x q_src] in U. rewrite (ba_src _ B), Forall_forall in U. apply (U t Ht).
  Qed.
  Lemma based0 : based p0.
  Proof. destruct Hp as (A & B & _). constructor; auto. Qed.
  Lemma costs_at_spec x : length x = n -> costs_at p0 x = map (exact_square x) (objectives src) ++ map (exact_viol x) (penalties src).
  Proof. intros Lx. unfold costs_at. rewrite (proj1 (exact_at p0 x based0 Lx)). reflexivity. Qed.
  Lemma viols_at_spec x : length x = n -> SqpRunModel.viols_at p0 x = map (exact_viol x) (merits src).
  Proof. intros Lx. unfold SqpRunModel.viols_at. rewrite (proj2 (exact_at p0 x based0 Lx)). reflexivity. Qed.
  Lemma merit_of_sum costs viols (mu : list R) : SqpModel.merit_of costs viols mu = merit_sum mu costs viols.
  Proof.
    unfold SqpModel.merit_of, merit_sum, vdot, rsum. rewrite !vsum_R. change (@nadd R R_Num) with Rplus. rewrite map_id. f_equal.
    clear costs. revert mu. induction viols as [|v viols IH]; intros [|m mu]; cbn [combine map Rsum]; auto. cbn [fst snd]. rewrite IH. change (@nmul R R_Num) with Rmult. ring.
  Qed.

  (** ** solve() *)
  Definition lim_hyp : Prop := 0 <= eps /\ honest eps delta L.
  Lemma solve_world x box mu w : wat x box mu w -> exists w' o, w_solve L p0 w = (w', o) /\ wat x box mu w' /\ w_rest w' = w_rest w /\
    (forall p s, w_state w = Ok (p, s) -> l_up L (w_calls w) = true -> l_solved L (w_calls w) s = true -> o = Some (l_sol L (w_calls w) s)) /\ forall z, o = Some z ->
    length (firstn n z) = n /\ w_viols w' z = map (lin_violation x (firstn n z)) (merits src) /\
    (exists pen, w_costs w' z = map (gn_cost x (firstn n z)) (objectives src) ++ pen /\ length pen = length (penalties src)) /\ (lim_hyp -> keeps eps p0 (firstn n z)) /\
    (lim_hyp -> weights_ok p0 -> forall b, box = repeat b n -> Forall (fun m => / 10 ^ 7 <= m) mu -> keeps eps p0 x ->
     forall y, region p0 x b y -> SqpModel.merit_of (w_costs w' z) (w_viols w' z) mu <= convex_merit p0 mu x y + slop eps delta p0 mu x b).
  Proof.
    intros (pc & p & s & Ew & Bc & X & Y & Z & Cv & B & K). unfold w_solve. rewrite Ew.
    destruct (solve_kept (l_up L (w_calls w)) (l_solved L (w_calls w) s) (qp_data p) _ _ s K) as (a & ok & s' & E & K' & Hask & Hnone). rewrite E.
    assert (W' : wat x box mu (next w (Ok (p, s')))) by (exists pc, p, s'; auto 10).
    destruct a as [a|]; [|eexists _, _; split; [reflexivity|split; [exact W'|split; [reflexivity|split; [intros ? ? _ Hu; rewrite (Hnone eq_refl) in Hu; discriminate|discriminate]]]]].
    assert (Ea : a = s /\ l_solved L (w_calls w) s = ok). { unfold osqp_solve in E. destruct (_ || _)%bool in E; [|discriminate]. injection E as <- E2 _. auto. }
    destruct Ea as (-> & Sv).
    destruct ok; [|eexists _, _; split; [reflexivity|split; [exact W'|split; [reflexivity|split; [intros ? ? [= <- <-] _ Hv; rewrite Sv in Hv; discriminate|discriminate]]]]].
    pose proof (Hask s eq_refl) as (A1 & A2 & A3 & A4). set (z := l_sol L (w_calls w) s).
    assert (Lz : length z = d_cols (qp_data p)) by (unfold z; rewrite (Hs (w_calls w) s); apply K).
    destruct (based_usable pc Bc) as (U & No & Ro & _). pose proof (based_inv _ Bc) as I. pose proof (ba_init _ Bc) as H.
    destruct (data_conv pc p I H Cv) as (_ & Dc & _). set (zx := firstn (length (q_x pc)) z). set (zs := skipn (length (q_x pc)) z).
    assert (Ez : z = zx ++ zs) by (symmetry; apply firstn_skipn). assert (Lx : length zx = length (q_x pc)) by (unfold zx; rewrite firstn_length; lia).
    assert (En : firstn n z = zx) by (unfold zx; rewrite (ba_len _ Bc); reflexivity).
    pose proof (eval_violations_conv pc p I H U Cv zx zs Lx) as Ev. destruct (eval_costs_any pc p I H U Cv No Ro zx zs Lx) as (pen & Ec & Lpen & _); [rewrite <- Ez; exact Lz|].
    rewrite <- Ez in Ev, Ec. unfold w_evals. rewrite Ev. cbn [of_res obind]. rewrite Ec. cbn [of_res obind].
    assert (Lf : length (firstn n z) = n) by (rewrite En, Lx; apply Bc). destruct (exact_at p (firstn n z) B Lf) as (Q1 & Q2). rewrite Q1. cbn [of_res obind]. rewrite Q2. cbn [of_res obind].
    eexists _, _. split; [reflexivity|]. split; [exact W'|]. split; [reflexivity|]. split; [intros ? ? [= <- <-] _ _; reflexivity|]. intros z' [= <-]. split; [exact Lf|].
    split; [unfold w_viols; cbn [next w_state]; rewrite Ev, En, X, (ba_src _ Bc); reflexivity|].
    split; [exists pen; split; [unfold w_costs; cbn [next w_state]; rewrite Ec, En, X, (ba_src _ Bc); reflexivity|rewrite Lpen, (ba_src _ Bc); unfold penalties; rewrite app_length; reflexivity]|].
    assert (G : lim_hyp -> Forall2 (fun r lu => fst lu - eps <= srow_dot r z <= snd lu + eps) (d_mat (qp_data p)) (combine (map clamp_lo (d_lo (qp_data p))) (map clamp_hi (d_hi (qp_data p)))) /\
      forall y, length y = d_cols (qp_data p) ->
        Forall2 (fun r lu => (fst lu <= - 10 ^ 30 \/ fst lu <= srow_dot r y) /\ (10 ^ 30 <= snd lu \/ srow_dot r y <= snd lu)) (d_mat (qp_data p)) (combine (map clamp_lo (d_lo (qp_data p))) (map clamp_hi (d_hi (qp_data p)))) ->
        osqp_objective (d_cols (qp_data p)) (twice (d_hess (qp_data p))) (map clean (d_grad (qp_data p))) z <=
        osqp_objective (d_cols (qp_data p)) (twice (d_hess (qp_data p))) (map clean (d_grad (qp_data p))) y + delta).
    { intros (_ & Ho). pose proof (Ho (w_calls w) s _ _ _ _ _ A1 A2 A3 A4 Sv) as (F1 & F2). destruct K as (_ & Kn & _). rewrite Kn in F2. split; [exact F1|exact F2]. }
    split.
    - intros Lh. destruct (G Lh) as (F1 & _). pose proof (near_bounds eps pc p z I H U Cv Lz F1) as N. rewrite (ba_bnds _ Bc), (ba_len _ Bc) in N. exact N.
    - intros Lh Wo b Eb Mu Kx y Ry. destruct (G Lh) as (F1 & F2). destruct (Wo x ltac:(rewrite <- X; apply Bc)) as (W1 & W2).
      assert (O : near_ok eps b pc).
      { constructor; auto; rewrite ?(ba_src _ Bc), ?X; auto; [rewrite Z; exact Mu|rewrite Y, Eb, <- X, (ba_len _ Bc); reflexivity|rewrite (ba_bnds _ Bc); exact Kx]. }
      destruct (near_solution eps delta b pc p z O Cv (proj1 Lh) Lz F1 F2) as (_ & costs & viols & E1 & E2 & Q). rewrite merit_of_sum. unfold w_costs, w_viols. cbn [next w_state]. rewrite E1, E2. cbn [or_nil].
      unfold region, convex_merit, slop in *. rewrite X, Z, (ba_src _ Bc), (ba_bnds _ Bc) in Q. apply Q, Ry.
  Qed.

  (** ** The loops *)
  Variable P : SqpModel.sqp_params R.
  Variable callback : C -> SqpModel.results R -> C * list bool.
  Variable clock : C -> C * R.
  Local Notation E := (run_env L p0 callback clock).
  Local Notation sst := (SqpModel.sst R world).
  Local Notation best s := (SqpModel.best (SqpModel.res s)).
  Local Notation mu s := (SqpModel.merit_coeffs (SqpModel.res s)).
  Definition mu_hyp : Prop := / 10 ^ 7 <= SqpModel.initial_merit_error_coeff P /\ 1 <= SqpModel.merit_coeff_increase_ratio P.
  Definition stat_hyp : Prop := lim_hyp /\ mu_hyp /\ weights_ok p0 /\ keeps eps p0 (q_x p0).

  Record core (s : sst) : Prop := {
    co_coh : SqpProofs.coherent E s;
    co_len : length (SqpModel.p_vars s) = n;
    co_box : exists b, SqpModel.p_box s = repeat b n;
    co_mu : length (mu s) = length (merits src);
    co_low : mu_hyp -> Forall (fun m => / 10 ^ 7 <= m) (mu s);
    co_lim : lim_hyp -> SqpModel.p_vars s = q_x p0 \/ keeps eps p0 (SqpModel.p_vars s)
  }.
  Definition margin (s : sst) : R := Rmax (SqpModel.min_approx_improve P) (SqpModel.min_approx_improve_frac P * Rmax (Rabs (SqpModel.e_merit (best s))) (1 / 10 ^ 12)).
  Definition stationary (s : sst) : Prop := exists b, SqpModel.p_box s = repeat b n /\ forall y, region p0 (SqpModel.p_vars s) b y ->
    SqpModel.e_merit (best s) < convex_merit p0 (mu s) (SqpModel.p_vars s) y + slop eps delta p0 (mu s) (SqpModel.p_vars s) b + margin s.
  Definition headed (s : sst) : Prop := exists t, SqpModel.trace s = SqpModel.EvCallback true :: t.
  (** before a convexification, in the trust region loop, and after it *)
  Definition invA (s : sst) : Prop := core s /\ winv (SqpModel.world s) /\ ~ headed s.
  Definition invJ (s : sst) : Prop := core s /\ wat (SqpModel.p_vars s) (SqpModel.p_box s) (SqpModel.p_merit s) (SqpModel.world s) /\ ~ headed s.
  Definition invB (s : sst) : Prop := core s /\ winv (SqpModel.world s) /\ (headed s -> SqpModel.status s = SqpModel.kConverged /\ (stat_hyp -> stationary s)).
  Definition safe {A} (Q : A -> Prop) (o : outcome A) : Prop := match o with Ok a => Q a | NoFuel => True | Undef => False end.

  Lemma wat_winv x box m w : wat x box m w -> winv w.
  Proof. intros W. eapply wfit_inv, wat_fit, W. Qed.
  Lemma A_B s : invA s -> invB s.
  Proof. intros (A & B & N). split; [exact A|]. split; [exact B|]. intros H. destruct (N H). Qed.
  Lemma J_A s : invJ s -> invA s.
  Proof. intros (A & B & N). split; [exact A|]. split; [eapply wat_winv, B|exact N]. Qed.
  Lemma A_status s st : invA s -> invA (SqpModel.set_status s st).
  Proof. intros ([] & B & N). split; [constructor; assumption|]. split; [exact B|exact N]. Qed.
  Lemma A_its s a b c : invA s -> invA (SqpModel.set_res s (SqpModel.with_its (SqpModel.res s) a b c (SqpModel.overall_it (SqpModel.res s)))).
  Proof. intros ([] & B & N). split; [constructor; assumption|]. split; [exact B|exact N]. Qed.
  Lemma J_its s a b c d : invJ s -> invJ (SqpModel.set_res s (SqpModel.with_its (SqpModel.res s) a b c d)).
  Proof. intros ([] & B & N). split; [constructor; assumption|]. split; [exact B|exact N]. Qed.
  Lemma winv_rest w c : winv w -> winv (with_rest w c).
  Proof. intros W. exact W. Qed.
  Lemma wat_rest x box m w c : wat x box m w -> wat x box m (with_rest w c).
  Proof. intros W. exact W. Qed.

  (** one solve of the QP *)
  Lemma solve_step s s' st : invJ s -> SqpModel.solveQPProblem E s = (s', st) ->
    core s' /\ wat (SqpModel.p_vars s') (SqpModel.p_box s') (SqpModel.p_merit s') (SqpModel.world s') /\ SqpModel.p_box s' = SqpModel.p_box s /\ SqpModel.p_vars s' = SqpModel.p_vars s /\
    ((st = SqpModel.kQPSolveFailed /\ ~ headed s') \/
     exists ok : bool, st = (if ok then SqpModel.kRunning else SqpModel.kStoppedByCallback) /\ (ok = false -> ~ headed s') /\
       let z := SqpModel.e_vars (SqpModel.new (SqpModel.res s')) in
       SqpProofs.evals_ok E (mu s') (SqpModel.new (SqpModel.res s')) /\ length (firstn n z) = n /\ (lim_hyp -> keeps eps p0 (firstn n z)) /\
       SqpModel.approx_improve (SqpModel.res s') = SqpModel.e_merit (best s') - SqpModel.e_amerit (SqpModel.new (SqpModel.res s')) /\
       (stat_hyp -> forall b, SqpModel.p_box s' = repeat b n -> forall y, region p0 (SqpModel.p_vars s') b y ->
         SqpModel.e_amerit (SqpModel.new (SqpModel.res s')) <= convex_merit p0 (mu s') (SqpModel.p_vars s') y + slop eps delta p0 (mu s') (SqpModel.p_vars s') b)).
  Proof.
    intros (K & W & N) Eq. pose proof (co_coh _ K) as (V1 & V2 & V3 & V4). destruct (solve_world _ _ _ _ W) as (w' & o & Ew & W' & _ & _ & Hz).
    pose proof (SqpProofs.solveQP_spec E s s' st (co_coh _ K) Eq) as (Ch & Eb & Em & Ex & Cs).
    unfold SqpModel.solveQPProblem in Eq. change (SqpModel.qp_solve E (SqpModel.world s)) with (w_solve L p0 (SqpModel.world s)) in Eq. rewrite Ew in Eq.
    assert (Kc : forall s1 : sst, SqpProofs.coherent E s1 -> SqpModel.p_vars s1 = SqpModel.p_vars s -> SqpModel.p_box s1 = SqpModel.p_box s -> mu s1 = mu s -> core s1).
    { intros s1 C1 C2 C3 C4. constructor; [exact C1|rewrite C2|rewrite C3|rewrite C4|rewrite C4|rewrite C2]; apply K. }
    destruct o as [z|].
    - destruct (Hz z eq_refl) as (Lz & _ & _ & Kz & Sz). cbv zeta in Eq. cbn [SqpModel.emit SqpModel.set_world SqpModel.set_variables SqpModel.set_res SqpModel.world SqpModel.res SqpModel.p_vars] in Eq.
      destruct (SqpModel.callbacks E w' _) as [w'' ans] eqn:Ecb. injection Eq as Es Est.
      assert (Ev : SqpModel.p_vars s' = SqpModel.p_vars s) by (rewrite <- Es; symmetry; exact V1).
      assert (Ebx : SqpModel.p_box s' = SqpModel.p_box s) by (rewrite <- Es; reflexivity). assert (Epm : SqpModel.p_merit s' = SqpModel.p_merit s) by (rewrite <- Es; reflexivity).
      assert (Ww : wat (SqpModel.p_vars s') (SqpModel.p_box s') (SqpModel.p_merit s') (SqpModel.world s')).
      { rewrite Ev, Ebx, Epm. rewrite <- Es. cbn [SqpModel.emit SqpModel.set_world SqpModel.world]. cbn [run_env SqpModel.callbacks] in Ecb. destruct (callback (w_rest w') _) as [c a] in Ecb. injection Ecb as <- _. apply wat_rest, W'. }
      split; [apply Kc; assumption|]. split; [exact Ww|]. split; [exact Ebx|]. split; [exact Ev|]. right.
      destruct Cs as [(Q & _ & Tr)|(ok & Q & Tr & Hn & He & Hap & _)]; [rewrite <- Es in Tr; discriminate|]. exists ok. split; [exact Q|]. split; [intros -> (t & Ht); rewrite Tr in Ht; discriminate|].
      assert (Enz : SqpModel.e_vars (SqpModel.new (SqpModel.res s')) = z) by (rewrite <- Es; reflexivity).
      cbv zeta. rewrite Enz. rewrite Em. split; [exact Hn|]. split; [exact Lz|]. split; [exact Kz|]. rewrite Eb. split; [exact Hap|].
      intros (Lh & Mh & Wh & Kh) b Hb y Ry. rewrite Ev in Ry |- *. rewrite Ebx in Hb.
      assert (Ea : SqpModel.e_amerit (SqpModel.new (SqpModel.res s')) = SqpModel.merit_of (w_costs w' z) (w_viols w' z) (mu s)) by (rewrite <- Es; reflexivity). rewrite Ea.
      rewrite V3 in Sz. apply (Sz Lh Wh b Hb (co_low _ K Mh)); [|exact Ry]. destruct (co_lim _ K Lh) as [-> | X]; [exact Kh|exact X].
    - cbv zeta in Eq. injection Eq as Es Est.
      assert (Ev : SqpModel.p_vars s' = SqpModel.p_vars s) by (rewrite <- Es; symmetry; exact V1).
      assert (Ebx : SqpModel.p_box s' = SqpModel.p_box s) by (rewrite <- Es; reflexivity). assert (Epm : SqpModel.p_merit s' = SqpModel.p_merit s) by (rewrite <- Es; reflexivity).
      split; [apply Kc; assumption|]. split; [rewrite Ev, Ebx, Epm; rewrite <- Es; exact W'|]. split; [exact Ebx|]. split; [exact Ev|]. left.
      split; [symmetry; exact Est|]. rewrite <- Es. intros (t & Ht). discriminate.
  Qed.

  Lemma scale_repeat k b m : vscale k (repeat b m) = repeat (k * b) m.
  Proof. unfold vscale. induction m as [|m IH]; [reflexivity|]. cbn [repeat map]. rewrite IH. reflexivity. Qed.
  Lemma resize_J (s : sst) (box : list R) : core s -> wat (SqpModel.p_vars s) (SqpModel.p_box s) (SqpModel.p_merit s) (SqpModel.world s) -> ~ headed s -> (exists b, box = repeat b n) ->
    invJ (let s := SqpModel.set_pbox s box in let s := SqpModel.set_world s (SqpModel.update_bounds E (SqpModel.world s) (SqpModel.p_vars s) (SqpModel.p_box s)) in
          SqpModel.set_res s (SqpModel.with_box (SqpModel.res s) (SqpModel.p_box s))).
  Proof.
    intros K W N (b & Eb). cbv zeta. split; [|split; [|exact N]].
    - destruct K as [(V1 & V2 & V3 & V4) A2 A3 A4 A5 A6]. constructor; auto; [|exists b; exact Eb]. split; [exact V1|]. split; [exact V2|]. split; [exact V3|reflexivity].
    - cbn [SqpModel.set_res SqpModel.set_world SqpModel.set_pbox SqpModel.p_vars SqpModel.p_box SqpModel.p_merit SqpModel.world]. cbn [run_env SqpModel.update_bounds].
      eapply bounds_world; [exact W|]. rewrite Eb. apply repeat_length.
  Qed.
  Lemma scale_J s k : core s -> wat (SqpModel.p_vars s) (SqpModel.p_box s) (SqpModel.p_merit s) (SqpModel.world s) -> ~ headed s -> invJ (SqpModel.scale_box E s k).
  Proof. intros K W N. apply (resize_J s (vscale k (SqpModel.p_box s)) K W N). destruct (co_box _ K) as (b & ->). eexists. apply scale_repeat. Qed.
  Lemma min_J s : core s -> wat (SqpModel.p_vars s) (SqpModel.p_box s) (SqpModel.p_merit s) (SqpModel.world s) -> ~ headed s -> invJ (SqpModel.min_box P E s).
  Proof. intros K W N. apply (resize_J s (repeat (SqpModel.min_trust_box_size P) n) K W N). eexists. reflexivity. Qed.

  Lemma body_J f s : invJ s -> match SqpModel.tr_body P E f s with SqpModel.TrReturn s' => invB s' | SqpModel.TrContinue _ s' => invJ s' end.
  Proof.
    intros J. unfold SqpModel.tr_body. set (s0 := SqpModel.set_res s _). assert (J0 : invJ s0) by (apply J_its, J). clearbody s0.
    destruct (SqpModel.solveQPProblem E s0) as [s1 st] eqn:Eq. destruct (solve_step s0 s1 st J0 Eq) as (K & W & _ & _ & Cs). clear Eq. set (s2 := SqpModel.set_status s1 st).
    assert (K2 : core s2) by (destruct K; constructor; assumption). assert (W2 : wat (SqpModel.p_vars s2) (SqpModel.p_box s2) (SqpModel.p_merit s2) (SqpModel.world s2)) by exact W.
    destruct Cs as [(-> & N)|(ok & Est & Nf & Hn & Lz & Kz & Hap & Hst)].
    - assert (N2 : ~ headed s2) by exact N. destruct (_ <? _)%Z; [apply scale_J; assumption|]. destruct (_ =? _)%Z; [apply min_J; assumption|]. apply A_B. split; [exact K2|]. split; [eapply wat_winv, W2|exact N2].
    - destruct ok; subst st; [|apply A_B; split; [exact K2|]; split; [eapply wat_winv, W2|exact (Nf eq_refl)]].
      assert (Conv : SqpModel.e_merit (best s2) - SqpModel.e_amerit (SqpModel.new (SqpModel.res s2)) < margin s2 -> invB (SqpModel.set_status s2 SqpModel.kConverged)).
      { intros Hm. split; [destruct K; constructor; assumption|]. split; [eapply wat_winv, W2|]. intros _. split; [reflexivity|]. intros Sh. destruct (co_box _ K) as (b & Hb). exists b. split; [exact Hb|]. intros y Ry.
        specialize (Hst Sh b Hb y Ry).
        change (SqpModel.e_merit (best s1) < convex_merit p0 (mu s1) (SqpModel.p_vars s1) y + slop eps delta p0 (mu s1) (SqpModel.p_vars s1) b + margin s2).
        change (SqpModel.res s2) with (SqpModel.res s1) in Hm. lra. }
      assert (Nn : forall e (s3 : sst), (forall o, e <> SqpModel.EvCallback o) -> SqpModel.trace s3 = e :: SqpModel.trace s2 -> ~ headed s3) by (intros e s3 He Ht (t & Ht'); rewrite Ht in Ht'; injection Ht' as -> _; eapply He; reflexivity).
      cbv zeta. cbn [SqpModel.set_status SqpModel.res] in Conv |- *. change (SqpModel.res s2) with (SqpModel.res s1) in Conv |- *. rewrite Hap.
      destruct (nltb _ (SqpModel.min_approx_improve P)) eqn:E1.
      { apply Rltb_true in E1. apply Conv. eapply Rlt_le_trans; [exact E1|]. apply Rmax_l. }
      destruct (nltb _ (SqpModel.min_approx_improve_frac P)) eqn:E2.
      { apply Rltb_true in E2. apply Conv. rewrite nmax_R in E2. change (@ndiv R R_Num) with Rdiv in E2. change (@nabs R R_Num) with Rabs in E2. change (ndec 1 (-12)) with (1 / 10 ^ 12) in E2.
        set (d := Rmax (Rabs (SqpModel.e_merit (best s1))) (1 / 10 ^ 12)) in *.
        assert (Hd : 0 < d) by (eapply Rlt_le_trans; [|apply Rmax_r]; lra).
        eapply Rlt_le_trans; [|apply Rmax_r]. change (Rmax (Rabs (SqpModel.e_merit (best s2))) (1 / 10 ^ 12)) with d.
        apply (Rmult_lt_compat_r d) in E2; [|exact Hd]. unfold Rdiv in E2. rewrite Rmult_assoc, Rinv_l, Rmult_1_r in E2 by lra. exact E2. }
      destruct (_ || _)%bool.
      + apply scale_J; [destruct K2; constructor; assumption|exact W2|]. apply (Nn SqpModel.EvReject); [discriminate|reflexivity].
      + apply A_B. unfold SqpModel.accept, SqpModel.scale_box. cbv zeta. destruct K2 as [(V1 & V2 & V3 & V4) A2 (b & A3) A4 A5 A6]. split; [|split].
        * constructor; [split; [reflexivity|]; split; [exact Hn|]; split; [exact V3|reflexivity]|exact Lz|exists (SqpModel.trust_expand_ratio P * b); cbn [SqpModel.set_res SqpModel.set_world SqpModel.set_pbox SqpModel.set_variables SqpModel.emit SqpModel.p_box]; rewrite A3; apply scale_repeat|exact A4|exact A5|].
          intros Lh. right. apply Kz, Lh.
        * cbn [SqpModel.set_res SqpModel.set_world SqpModel.world]. apply wfit_inv. cbn [run_env SqpModel.update_bounds]. apply bounds_fit; [eapply wat_fit, W2|exact Lz|].
          cbn [SqpModel.set_pbox SqpModel.p_box SqpModel.set_variables SqpModel.set_res SqpModel.emit]. rewrite A3, scale_repeat. apply repeat_length.
        * eapply Nn; [|reflexivity]. discriminate.
  Qed.

  Lemma box_max (s : sst) : core s -> exists m, vmaxc (SqpModel.box_size (SqpModel.res s)) = Some m.
  Proof.
    intros K. destruct (co_coh _ K) as (_ & _ & _ & V4). rewrite <- V4. destruct (co_box _ K) as (b & ->). destruct Hp as (_ & _ & Hn & _). destruct n; [lia|]. cbn [repeat vmaxc]. eauto.
  Qed.
  Lemma tr_safe fuel : forall f s, invJ s -> safe invB (SqpModel.tr_loop P E fuel f s).
  Proof.
    induction fuel as [|fuel IH]; intros f s J; cbn [SqpModel.tr_loop]; destruct (box_max s (proj1 J)) as (m & ->); destruct (nleb _ m); try exact I; try apply A_B, J_A, J.
    pose proof (body_J f s J) as B. destruct (SqpModel.tr_body P E f s) as [f' s'|s']; [apply IH, B|exact B].
  Qed.
  Lemma step_safe fuel s : invA s -> safe (fun r => invB (fst r) /\ (snd r = false -> invA (fst r))) (SqpModel.stepSQPSolver P E fuel s).
  Proof.
    intros (K & W & N). unfold SqpModel.stepSQPSolver. cbv zeta. set (s1 := SqpModel.emit _ _).
    assert (J1 : invJ s1).
    { pose proof (co_coh _ K) as (V1 & V2 & V3 & V4). split; [destruct K; constructor; assumption|]. split; [|intros (t & Ht); discriminate]. unfold s1.
      cbn [SqpModel.emit SqpModel.set_world SqpModel.set_res SqpModel.p_vars SqpModel.p_box SqpModel.p_merit SqpModel.world]. cbn [run_env SqpModel.convexify].
      apply convexify_world; [exact W|apply K|destruct (co_box _ K) as (b & ->); apply repeat_length|rewrite V3; apply K]. }
    clearbody s1. unfold SqpModel.runTrustRegionLoop. cbv zeta. set (s2 := SqpModel.set_res s1 _). assert (J2 : invJ s2) by (apply J_its, J1). clearbody s2.
    pose proof (tr_safe fuel 0%Z s2 J2) as T. destruct (SqpModel.tr_loop P E fuel 0%Z s2) as [s3| |]; cbn [obind safe] in *; try tauto.
    destruct (SqpModel.status_eqb (SqpModel.status s3) SqpModel.kConverged) eqn:Es; cbn [safe fst snd]; [split; [exact T|discriminate]|].
    destruct (box_max s3 (proj1 T)) as (m & ->). pose proof T as (K3 & W3 & H3). destruct (nltb m _); cbn [safe fst snd].
    - split; [|discriminate]. split; [destruct K3; constructor; assumption|]. split; [exact W3|]. intros Hh. split; [reflexivity|]. apply (H3 Hh).
    - split; [exact T|]. intros _. split; [exact K3|]. split; [exact W3|]. intros Hh. destruct (H3 Hh) as (Q & _). rewrite Q in Es. discriminate.
  Qed.
  Lemma convex_safe fuel k : forall s, invA s -> safe invB (SqpModel.convex_loop P E fuel k s).
  Proof.
    induction k as [|k IH]; intros s A; cbn [SqpModel.convex_loop]; [apply A_B, A|].
    destruct (SqpModel.clock E (SqpModel.world s)) as [w el] eqn:Ec.
    assert (A1 : invA (SqpModel.set_world s w)).
    { destruct A as (K & W & N). split; [destruct K; constructor; assumption|]. split; [|exact N]. cbn [SqpModel.set_world SqpModel.world]. cbn [run_env SqpModel.clock] in Ec. destruct (clock (w_rest (SqpModel.world s))) as [c t]. injection Ec as <- _. apply winv_rest, W. }
    destruct (nltb _ el); [apply A_B, A_status, A1|]. destruct (_ >=? _)%Z; [apply A_B, A_status, A1|].
    pose proof (step_safe fuel _ A1) as T. destruct (SqpModel.stepSQPSolver P E fuel _) as [[s2 stop]| |]; cbn [obind safe fst snd] in *; try tauto.
    destruct T as (T1 & T2). destruct stop; [exact T1|apply IH, T2; reflexivity].
  Qed.
  Lemma inflate_length viols : forall coeffs, length (SqpModel.inflate P viols coeffs) = length coeffs.
  Proof. induction viols as [|v viols IH]; intros [|c coeffs]; try reflexivity. cbn [SqpModel.inflate length]. rewrite IH. reflexivity. Qed.
  Lemma inflate_low viols : mu_hyp -> forall coeffs, Forall (fun m => / 10 ^ 7 <= m) coeffs -> Forall (fun m => / 10 ^ 7 <= m) (SqpModel.inflate P viols coeffs).
  Proof.
    intros (_ & M2). pose proof tiny_pos as Tp. induction viols as [|v viols IH]; intros [|c coeffs] F; try exact F. cbn [SqpModel.inflate]. inversion F as [|? ? F1 F2]; subst. constructor; [|apply IH, F2].
    destruct (nltb _ v); [|exact F1]. change (@nmul R R_Num) with Rmult. nra.
  Qed.
  Lemma adjust_safe s : core s -> winv (SqpModel.world s) -> safe invA (SqpModel.adjustPenalty P E s).
  Proof.
    intros K W. pose proof K as [(V1 & (V2a & V2b & V2c) & V3 & V4) A2 (b & A3) A4 A5 A6]. unfold SqpModel.adjustPenalty. cbv zeta.
    assert (Lv : length (SqpModel.e_viols (best s)) = length (mu s)).
    { rewrite V2a. rewrite <- V1. cbn [run_env SqpModel.exact_viols]. rewrite viols_at_spec by exact A2. rewrite map_length. symmetry. exact A4. }
    rewrite Lv, Nat.eqb_refl. cbn [negb]. rewrite andb_false_r.
    cbn [SqpModel.emit SqpModel.set_res SqpModel.res SqpModel.with_merit SqpModel.box_size]. rewrite <- V4, A3.
    set (after := if SqpModel.inflate_constraints_individually P then SqpModel.inflate P (SqpModel.e_viols (best s)) (mu s) else map (fun c => (c * SqpModel.merit_coeff_increase_ratio P)%num) (mu s)).
    assert (La : length after = length (merits src)) by (unfold after; destruct (SqpModel.inflate_constraints_individually P); [rewrite inflate_length|rewrite map_length]; exact A4).
    assert (Fa : mu_hyp -> Forall (fun m => / 10 ^ 7 <= m) after).
    { intros M. specialize (A5 M). unfold after. destruct (SqpModel.inflate_constraints_individually P); [apply inflate_low; assumption|]. apply Forall_map. eapply Forall_impl; [|exact A5]. cbn beta. intros m Hm. destruct M as (_ & M2). pose proof tiny_pos. change (@nmul R R_Num) with Rmult. nra. }
    assert (Hn : exists k, n = S k) by (destruct Hp as (_ & _ & Hn & _); destruct n; [lia|eauto]). destruct Hn as (k & Ek). rewrite Ek at 1. cbn [repeat safe]. split; [|split; [exact W|intros (t & Ht); discriminate]].
    constructor; [|exact A2|eexists; reflexivity|exact La|exact Fa|exact A6]. split; [exact V1|]. split; [split; [exact V2a|split; [exact V2b|reflexivity]]|]. split; reflexivity.
  Qed.
  Lemma penalty_safe fuel pfuel : forall i s, invA s -> safe invB (SqpModel.penalty_loop P E fuel pfuel i s).
  Proof.
    induction pfuel as [|pfuel IH]; intros i s A; cbn [SqpModel.penalty_loop]; destruct (nltb _ _); try exact I; try apply A_B, A.
    cbv zeta. set (s1 := SqpModel.set_res s _). assert (A1 : invA s1) by (apply A_its, A). clearbody s1.
    pose proof (convex_safe fuel 99 s1 A1) as T. destruct (SqpModel.convex_loop P E fuel 99 s1) as [s2| |]; cbn [obind safe] in *; try tauto.
    pose proof T as (K & W & H). destruct (SqpModel.verifySQPSolverConvergence P s2).
    { cbn [safe]. split; [destruct K; constructor; assumption|]. split; [exact W|]. intros Hh. split; [reflexivity|]. apply (H Hh). }
    destruct (_ || _)%bool; [exact T|]. pose proof (adjust_safe (SqpModel.set_status s2 SqpModel.kRunning)) as Ad.
    destruct (SqpModel.adjustPenalty P E _) as [s3| |]; cbn [obind safe] in *; [apply IH, Ad; [destruct K; constructor; assumption|exact W]|exact I|apply Ad; [destruct K; constructor; assumption|exact W]].
  Qed.
  Lemma init_A c : invA (SqpModel.init P E (q_x p0) (first_world p0 c)).
  Proof.
    split; [|split].
    - constructor; [apply SqpProofs.coherent_init; reflexivity|reflexivity|eexists; reflexivity|apply repeat_length| |left; reflexivity].
      intros (M & _). change (Forall (fun m => / 10 ^ 7 <= m) (repeat (SqpModel.initial_merit_error_coeff P) (length (merits src)))). apply Forall_forall. intros m Hm. apply repeat_spec in Hm. subst m. exact M.
    - change (winv (first_world p0 c)). unfold first_world. exists p0, solver_new. cbn [w_state].
      pose proof (based_usable _ based0) as (U & _). pose proof (based_inv _ based0) as I0. rewrite (exact_costs_spec p0 I0 (ba_init _ based0) U). cbn [of_res obind].
      assert (Ev : exact_violations p0 = Val (map (exact_viol (q_x p0)) (merits src))).
      { unfold exact_violations. rewrite (iv_lay _ I0 (ba_init _ based0)). cbn [l_mer layout_of]. apply mapr_val. intros t Ht. apply exact_violation_spec. destruct U as (_ & _ & _ & U). rewrite Forall_forall in U. apply (U t Ht). }
      rewrite Ev. cbn [of_res obind]. split; [reflexivity|]. split; [apply based0|left; reflexivity].
    - intros (t & Ht). discriminate.
  Qed.
  Lemma run_safe fuel pfuel c : safe invB (run_solve L p0 P callback clock fuel pfuel c).
  Proof.
    unfold run_solve, SqpModel.solve. pose proof (penalty_safe fuel pfuel 0%Z _ (init_A c)) as T. destruct (SqpModel.penalty_loop P E fuel pfuel 0%Z _) as [s| |]; cbn [obind safe] in *; try tauto.
    destruct T as (K & W & H). set (s1 := if SqpModel.status_eqb (SqpModel.status s) SqpModel.kRunning then SqpModel.set_status s SqpModel.kPenaltyIterationLimit else s).
    assert (B1 : invB s1).
    { unfold s1. destruct (SqpModel.status_eqb (SqpModel.status s) SqpModel.kRunning) eqn:Es; [|split; [exact K|split; [exact W|exact H]]].
      split; [destruct K; constructor; assumption|]. split; [exact W|]. intros Hh. destruct (H Hh) as (Q & _). rewrite Q in Es. discriminate. }
    clearbody s1. destruct B1 as (K1 & W1 & H1). pose proof (co_coh _ K1) as (V1 & V2 & V3 & V4).
    assert (Ev : SqpModel.set_variables E s1 (SqpModel.e_vars (best s1)) = s1) by (unfold SqpModel.set_variables; rewrite <- V1; destruct s1; reflexivity).
    rewrite Ev. split; [exact K1|split; [exact W1|exact H1]].
  Qed.

  (** with a shrink ratio below one the loops end *)
  Hypothesis Hk0 : 0 <= SqpModel.trust_shrink_ratio P.
  Hypothesis Hk1 : SqpModel.trust_shrink_ratio P < 1.
  Hypothesis Hmin : 0 < SqpModel.min_trust_box_size P.
  Lemma core_good s : core s -> SqpRProofs.good s.
  Proof.
    intros K. pose proof (co_coh _ K) as (_ & _ & _ & V4). split; [exact V4|]. rewrite <- V4. destruct (co_box _ K) as (b & ->). destruct Hp as (_ & _ & Hn & _). destruct n; [lia|discriminate].
  Qed.
  Lemma penalty_ends m : forall i s, invA s -> SqpModel.max_merit_coeff_increases P <= IZR (i + Z.of_nat m) -> exists K s', SqpModel.penalty_loop P E K m i s = Ok s'.
  Proof.
    assert (Hn : (0 < SqpModel.n_nlp E)%nat) by (destruct Hp as (_ & _ & Hn & _); exact Hn).
    induction m as [|m IH]; intros i s A Hmax; cbn [SqpModel.penalty_loop]; destruct (nltb _ _) eqn:El; try (exists 0%nat; eauto; fail).
    - apply Rltb_true in El. replace (i + Z.of_nat 0)%Z with i in Hmax by lia. change (nofZ i) with (IZR i) in El. lra.
    - cbv zeta. set (s0 := SqpModel.set_res s _). assert (A0 : invA s0) by (apply A_its, A). clearbody s0.
      destruct (SqpRProofs.convex_terminates P E Hk0 Hk1 Hmin Hn 99 s0 (core_good _ (proj1 A0))) as (K1 & s1 & H1 & _). pose proof (convex_safe K1 99 s0 A0) as T. rewrite H1 in T. cbn [safe] in T.
      destruct (SqpModel.verifySQPSolverConvergence P s1) eqn:Ev. { exists K1. rewrite H1. cbn [obind]. rewrite Ev. eauto. }
      destruct (SqpModel.status_eqb (SqpModel.status s1) SqpModel.kIterationLimit || SqpModel.status_eqb (SqpModel.status s1) SqpModel.kTimeLimit)%bool eqn:Eo. { exists K1. rewrite H1. cbn [obind]. rewrite Ev, Eo. eauto. }
      destruct T as (Kc & W & _). pose proof (adjust_safe (SqpModel.set_status s1 SqpModel.kRunning) ltac:(destruct Kc; constructor; assumption) W) as Ad.
      destruct (SqpModel.adjustPenalty P E (SqpModel.set_status s1 SqpModel.kRunning)) as [s2| |] eqn:Ea; cbn [safe] in Ad; [|exfalso|destruct Ad].
      + destruct (IH (i + 1)%Z s2 Ad) as (K2 & s3 & H3). { replace (i + 1 + Z.of_nat m)%Z with (i + Z.of_nat (S m))%Z by lia. exact Hmax. }
        exists (Nat.max K1 K2). rewrite (SqpProofs.convex_mono P E K1 (Nat.max K1 K2) _ _ _ (Nat.le_max_l _ _) H1). cbn [obind]. rewrite Ev, Eo, Ea. cbn [obind].
        rewrite (SqpProofs.penalty_mono P E K2 (Nat.max K1 K2) m m _ _ _ (Nat.le_max_r _ _) (le_n _) H3). eauto.
      + revert Ea. unfold SqpModel.adjustPenalty. destruct (_ && _)%bool; [discriminate|]. cbv zeta. destruct (SqpModel.box_size _); discriminate.
  Qed.
  Lemma run_ends c : exists K, forall fuel pfuel, (K <= fuel)%nat -> (K <= pfuel)%nat -> exists s, run_solve L p0 P callback clock fuel pfuel c = Ok s /\ run_solve L p0 P callback clock K K c = Ok s.
  Proof.
    set (m := Z.to_nat (up (SqpModel.max_merit_coeff_increases P))).
    destruct (penalty_ends m 0%Z (SqpModel.init P E (q_x p0) (first_world p0 c)) (init_A c)) as (K & s & H).
    - destruct (archimed (SqpModel.max_merit_coeff_increases P)) as [Hup _]. apply Rle_trans with (IZR (up (SqpModel.max_merit_coeff_increases P))); [lra|]. apply IZR_le. unfold m. lia.
    - exists (Nat.max K m). intros fuel pfuel Hf Hpf. unfold run_solve, SqpModel.solve.
      rewrite (SqpProofs.penalty_mono P E K fuel m pfuel 0%Z _ s) by (lia || exact H). rewrite (SqpProofs.penalty_mono P E K (Nat.max K m) m (Nat.max K m) 0%Z _ s) by (lia || exact H). cbn [obind]. eauto.
  Qed.
End Run.
