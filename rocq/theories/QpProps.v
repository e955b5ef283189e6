(** * Properties of trajopt_sqp::TrajOptQPProblem *)
From Coq Require Import List ZArith Bool Arith Reals Lra Lia.
From Verif Require Import Num NumFacts RSums IfoptModel IfoptProofs ExprsModel ExprsProps ModelingSpec QpModel QpSpec QpProofs QpSlackProofs QpEvalProofs.
Import ListNotations.
Local Open Scope R_scope.

(** ** The minimum over the slack variables (C15, C20) *)

(** What a set costs at [x] when it is linearised at [x0]: coefficient times distance to the bounds. *)
Definition set_penalty (x0 x : list R) (t : term R) : R :=
  rsum (fun r => r_w r * bound_viol (r_bnd r) (linear x0 r x)) (term_rows x0 t).
Definition nonneg_weights (x0 : list R) (ts : list (term R)) : Prop :=
  Forall (fun t => Forall (fun r => 0 <= r_w r) (term_rows x0 t)) ts.
(** The slack part of the QP objective, minimised over the slack variables with [x] fixed. *)
Definition slack_minimum_is (c : convex R) (x : list R) (v : R) : Prop :=
  min_over_aux (length (c_grad c)) (qp_feasible c) (fun z => vdot (skipn (length x) (c_grad c)) (skipn (length x) z)) x v.

Lemma penalty_sum_app x0 x a b : penalty_sum x0 x (a ++ b) = penalty_sum x0 x a + penalty_sum x0 x b.
Proof. apply rsum_app. Qed.
Lemma penalty_sum_one x0 x ts : penalty_sum x0 x (one_rows x0 ts) = rsum (set_penalty x0 x) ts.
Proof.
  unfold penalty_sum, one_rows. rewrite rsum_flat_map. apply rsum_ext. intros t _. rewrite rsum_map. apply rsum_ext. intros r _. cbn [fst snd]. ring.
Qed.
Lemma filled_cons x (t : term R) ts k : filled x (t :: ts) (S k) = ((if nonempty x t then 1 else 0) + filled x ts k)%nat.
Proof. unfold filled. cbn [firstn filter]. destruct (nonempty x t); reflexivity. Qed.
Lemma penalty_sum_merit x0 x ms ts : forall k, penalty_sum x0 x (merit_rows x0 ms k ts) =
  rsum (fun it => nth (k + filled x0 ts (fst it)) ms 0 * set_penalty x0 x (snd it)) (combine (seq 0 (length ts)) ts).
Proof.
  induction ts as [|t ts IH]; intros k; [reflexivity|]. cbn [merit_rows length seq combine]. rewrite penalty_sum_app, rsum_cons, IH. cbn [fst snd]. f_equal.
  - unfold filled. cbn [firstn filter length]. rewrite Nat.add_0_r. unfold penalty_sum, set_penalty. rewrite rsum_map, <- rsum_scal. apply rsum_ext. intros r _. cbn [fst snd]. ring.
  - rewrite <- seq_shift. rewrite combine_map_l, rsum_map. apply rsum_ext. intros (i, u) _. cbn [fst snd]. rewrite filled_cons.
    destruct (nonempty x0 t); do 2 f_equal; lia.
Qed.
Lemma forall2_split {A B} (P : A -> B -> Prop) a a' b b' : length a = length b -> (Forall2 P (a ++ a') (b ++ b') <-> Forall2 P a b /\ Forall2 P a' b').
Proof.
  intros L. split; [|intros (X & Y); apply Forall2_app; assumption].
  revert b L. induction a as [|x a IH]; intros [|y b] L F; try discriminate; [split; [constructor|exact F]|].
  cbn in F. inversion F; subst. injection L as L. destruct (IH b L H4) as (X & Y). split; [constructor; assumption|exact Y].
Qed.
Lemma feasible_split p p' x z : convexified p p' -> inv p -> q_init p = true -> all_usable p -> length x = length (q_x p) -> length z = length (slack_costs (qp_rows p)) ->
  (qp_feasible (q_cvx p') (x ++ z) <-> in_box (q_cvx p') x /\ sfeas (q_x p) x (qp_rows p) z).
Proof.
  intros C I H U Lx Lz. pose proof (all_rows_typed p U) as T.
  assert (Lb : length (c_varb (q_cvx p')) = length (q_x p)).
  { rewrite (cv_varb _ _ C), map_length. unfold box_rows. rewrite map_length, !combine_length, (iv_bnds p I). destruct (iv_box p I H). lia. }
  unfold qp_feasible, all_bounds, in_box. rewrite (cv_mat _ _ C), (cv_rowb _ _ C), (cv_slackb _ _ C).
  rewrite forall2_split by (rewrite placed_length, map_length; reflexivity).
  pose proof (placed_feasible (q_x p) x (qp_rows p)) as PF. rewrite Lx in PF.
  assert (Fc : Forall (fun mr => in_cols (length (q_x p)) (snd mr)) (qp_rows p)) by (eapply Forall_impl; [|exact T]; cbn; tauto).
  specialize (PF Fc [] z). cbn [length app] in PF. 
  assert (Hid : Forall2 (fun r ob => exists b, ob = Some b /\ inside b (srow_dot r (x ++ z))) (map (fun i => [(i, 1)]) (seq 0 (length (q_x p) + length (slack_costs (qp_rows p)))))
      (c_varb (q_cvx p') ++ map Some (repeat {| b_lo := Some 0; b_hi := None |} (length (slack_costs (qp_rows p))))) <->
    Forall2 (fun v ob => exists b, ob = Some b /\ inside b v) x (c_varb (q_cvx p')) /\ Forall (fun v => 0 <= v) z).
  { rewrite <- Lx, <- Lz, <- app_length. rewrite identity_rows by (rewrite !app_length, map_length, repeat_length; lia).
    rewrite forall2_split by lia. rewrite slack_rows_nonneg. reflexivity. }
  rewrite Hid, <- PF. tauto.
Qed.
Lemma nonneg_rows p : nonneg_weights (q_x p) (hinges (q_src p) ++ absolutes (q_src p) ++ merits (q_src p)) -> Forall (fun m => 0 <= m) (q_merit p) ->
  Forall (fun mr => 0 <= fst mr * r_w (snd mr)) (qp_rows p).
Proof.
  intros W M. unfold nonneg_weights in W. rewrite !Forall_app in W. destruct W as (W1 & W2 & W3). unfold qp_rows. rewrite !Forall_app.
  assert (G : forall ts, Forall (fun t => Forall (fun r => 0 <= r_w r) (term_rows (q_x p) t)) ts -> forall t r, In t ts -> In r (term_rows (q_x p) t) -> 0 <= r_w r).
  { intros ts F t r Ht Hr. rewrite Forall_forall in F. specialize (F t Ht). rewrite Forall_forall in F. auto. }
  repeat split.
  - apply one_rows_forall. intros t r Ht Hr. cbn. pose proof (G _ W1 t r Ht Hr). lra.
  - apply one_rows_forall. intros t r Ht Hr. cbn. pose proof (G _ W2 t r Ht Hr). lra.
  - assert (A : Forall (fun mr => 0 <= r_w (snd mr)) (merit_rows (q_x p) (q_merit p) 0 (merits (q_src p)))) by (apply merit_rows_forall; intros; cbn; eapply (G _ W3); eauto).
    assert (B : Forall (fun mr => 0 <= fst mr) (merit_rows (q_x p) (q_merit p) 0 (merits (q_src p)))) by (apply (merit_rows_coeff (fun m => 0 <= m)); [lra|exact M]).
    rewrite Forall_forall in *. intros mr Hmr. apply Rmult_le_pos; auto.
Qed.
Lemma skipn_exact {A} (a b : list A) k : length a = k -> skipn k (a ++ b) = b.
Proof. intros <-. rewrite skipn_app, Nat.sub_diag, skipn_all, skipn_O. reflexivity. Qed.
Lemma firstn_exact {A} (a b : list A) k : length a = k -> firstn k (a ++ b) = a.
Proof. intros <-. rewrite firstn_app, Nat.sub_diag, firstn_all, firstn_O, app_nil_r. reflexivity. Qed.
Lemma slack_minimum_conv p p' x : inv p -> q_init p = true -> all_usable p -> convexified p p' ->
  nonneg_weights (q_x p) (hinges (q_src p) ++ absolutes (q_src p) ++ merits (q_src p)) -> Forall (fun m => 0 <= m) (q_merit p) ->
  in_box (q_cvx p') x -> length x = length (q_x p) -> slack_minimum_is (q_cvx p') x (penalty_sum (q_x p) x (qp_rows p)).
Proof.
  intros I H U C W M B Lx. pose proof (cv_obj _ _ C) as (q & (_ & _ & _ & Lq & _) & _ & Eg & _).
  assert (K : Forall (fun mr => typed (snd mr) /\ 0 <= fst mr * r_w (snd mr)) (qp_rows p)).
  { pose proof (all_rows_typed p U) as T. pose proof (nonneg_rows p W M) as N. rewrite Forall_forall in *. intros mr Hm. split; [apply T, Hm|apply N, Hm]. }
  destruct (slack_minimum (q_x p) x (qp_rows p) K) as (S1 & z0 & S2 & S3).
  assert (Lg : length (c_grad (q_cvx p')) = (length x + length (slack_costs (qp_rows p)))%nat) by (rewrite Eg, app_length; lia).
  assert (Hg : forall z, vdot (skipn (length x) (c_grad (q_cvx p'))) (skipn (length x) (x ++ z)) = vdot (slack_costs (qp_rows p)) z).
  { intros z. rewrite Eg, !skipn_exact by lia. reflexivity. }
  assert (L0 : length z0 = length (slack_costs (qp_rows p))).
  { pose proof (placed_feasible (q_x p) x (qp_rows p)) as PF. rewrite Lx in PF.
    assert (Fc : Forall (fun mr => in_cols (length (q_x p)) (snd mr)) (qp_rows p)) by (eapply Forall_impl; [|exact (all_rows_typed p U)]; cbn; tauto).
    apply (PF Fc [] z0) in S2. tauto. }
  unfold slack_minimum_is, min_over_aux. rewrite Lg. split.
  - intros z Lz F. rewrite Hg. apply S1. apply (feasible_split p p' x z C I H U Lx) in F; [tauto|lia].
  - exists z0. split; [lia|]. split; [|rewrite Hg; exact S3]. apply (feasible_split p p' x z0 C I H U Lx L0). auto.
Qed.

Theorem C15_slack_penalty : forall p : qp R, reach p -> q_init p = true -> all_usable p ->
  nonneg_weights (q_x p) (hinges (q_src p) ++ absolutes (q_src p) ++ merits (q_src p)) -> Forall (fun m => 0 <= m) (q_merit p) ->
  exists p', convexify sqrt p = Val p' /\ forall x, length x = length (q_x p) -> in_box (q_cvx p') x ->
    slack_minimum_is (q_cvx p') x
      (rsum (set_penalty (q_x p) x) (hinges (q_src p) ++ absolutes (q_src p)) +
       rsum (fun kt => nth (filled (q_x p) (merits (q_src p)) (fst kt)) (q_merit p) 0 * set_penalty (q_x p) x (snd kt))
            (combine (seq 0 (length (merits (q_src p)))) (merits (q_src p)))).
Proof.
  intros p Re H U W M. pose proof (reach_inv p Re) as I. destruct (convexify_spec p I H U) as (p' & E & C). exists p'. split; [exact E|]. intros x Lx B.
  replace (_ + _) with (penalty_sum (q_x p) x (qp_rows p)); [apply (slack_minimum_conv p p'); auto|].
  unfold qp_rows. rewrite !penalty_sum_app, !penalty_sum_one, rsum_app, (penalty_sum_merit _ _ _ _ 0). cbn [Nat.add]. ring.
Qed.
Print Assumptions C15_slack_penalty.

(** When no constraint set is empty, the k-th set is charged the k-th merit coefficient. *)
Lemma filled_all x (ts : list (term R)) : Forall (fun t => nonempty x t = true) ts -> forall k, (k <= length ts)%nat -> filled x ts k = k.
Proof.
  induction 1 as [|t ts Ht _ IH]; intros k Lk; [cbn in Lk; destruct k; [reflexivity|lia]|]. destruct k; [reflexivity|]. rewrite filled_cons, Ht, IH by (cbn in Lk; lia). reflexivity.
Qed.
Lemma indexed_rsum (f : R -> term R -> R) ms ts k : length ts = length ms -> 
  rsum (fun kt => f (nth (fst kt) (repeat 0 k ++ ms) 0) (snd kt)) (combine (seq k (length ts)) ts) = rsum (fun mt => f (fst mt) (snd mt)) (combine ms ts).
Proof.
  revert ms k. induction ts as [|t ts IH]; intros [|m ms] k L; try discriminate; [reflexivity|]. cbn [length seq combine]. rewrite !rsum_cons. cbn [fst snd].
  rewrite app_nth2, repeat_length, Nat.sub_diag by (rewrite repeat_length; lia). cbn [nth]. f_equal.
  injection L as L. pose proof (IH ms (S k) L) as E.
  rewrite <- E. apply rsum_ext. intros (i, u) Hi. apply in_combine_l in Hi. apply in_seq in Hi. cbn [fst snd]. f_equal.
  rewrite !app_nth2, !repeat_length by (rewrite repeat_length; lia). replace (i - k)%nat with (S (i - S k)) by lia. reflexivity.
Qed.
Theorem C20_merit_by_set_partial : forall p : qp R, reach p -> q_init p = true -> all_usable p ->
  nonneg_weights (q_x p) (hinges (q_src p) ++ absolutes (q_src p) ++ merits (q_src p)) ->
  Forall (fun t => nonempty (q_x p) t = true) (merits (q_src p)) ->
  forall m pm, Forall (fun c => 0 <= c) m -> set_merit p m = Val pm ->
  exists p', convexify sqrt pm = Val p' /\ forall x, length x = length (q_x p) -> in_box (q_cvx p') x ->
    slack_minimum_is (q_cvx p') x
      (rsum (set_penalty (q_x p) x) (hinges (q_src p) ++ absolutes (q_src p)) +
       rsum (fun mt => fst mt * set_penalty (q_x p) x (snd mt)) (combine m (merits (q_src p)))).
Proof.
  intros p Re H U W N m pm M E. assert (Re' : reach pm) by (eapply reach_merit; eauto).
  unfold set_merit in E. destruct (Nat.eqb_spec (length m) (length (s_cnt (q_src p)) + length (s_dcnt (q_src p)))) as [Lm|]; [|discriminate]. injection E as <-.
  destruct (C15_slack_penalty _ Re' H U W M) as (p' & E' & S). exists p'. split; [exact E'|]. intros x Lx B. specialize (S x Lx B). cbn [q_x q_src q_merit] in S.
  assert (Ll : length (merits (q_src p)) = length m) by (unfold merits; rewrite app_length; lia).
  rewrite <- (indexed_rsum (fun a t => a * set_penalty (q_x p) x t) m _ 0 Ll). cbn [repeat app].
  rewrite (rsum_ext _ (fun kt => nth (fst kt) m 0 * set_penalty (q_x p) x (snd kt))) in S; [exact S|]. intros (i, t) Hi. apply in_combine_l in Hi. apply in_seq in Hi. cbn [fst snd]. rewrite filled_all by (auto; lia). reflexivity.
Qed.
Print Assumptions C20_merit_by_set_partial.

(** ** Linearised constraint violations (C16) *)
Definition lin_violation (x0 x : list R) (t : term R) : R := rsum (fun r => bound_viol (r_bnd r) (linear x0 r x)) (term_rows x0 t).
Lemma merit_chunks_map (f : R * crow -> R) (g : crow -> R) x ms ts : (forall m r, f (m, r) = g r) -> forall k,
  map (rsum f) (merit_chunks x ms k ts) = map (fun t => rsum g (term_rows x t)) ts.
Proof. intros E. induction ts as [|t ts IH]; intros k; [reflexivity|]. cbn [merit_chunks map]. rewrite IH, rsum_map. f_equal. apply rsum_ext. auto. Qed.
Lemma pen_rows_length p : all_usable p -> length (one_rows (q_x p) (hinges (q_src p)) ++ one_rows (q_x p) (absolutes (q_src p))) = rows_at (q_x p) (pens (q_src p)).
Proof.
  intros (_ & A2 & A3 & _). rewrite app_length, (one_rows_length (length (q_x p)) IHinge), (one_rows_length (length (q_x p)) IAbsolute) by assumption.
  rewrite <- rows_at_app. unfold pens, hinges, absolutes. rewrite <- app_assoc. reflexivity.
Qed.
Lemma eval_violations_conv p p' : inv p -> q_init p = true -> all_usable p -> convexified p p' -> forall x s, length x = length (q_x p) ->
  eval_convex_violations p' (x ++ s) = Val (map (lin_violation (q_x p) x) (merits (q_src p))).
Proof.
  intros I H U C x s Lx. pose proof (cv_keep _ _ C) as (K1 & K2 & K3 & K4 & K5 & K6 & K7). pose proof (iv_lay p I H) as Hl. pose proof (all_rows_typed p U) as T.
  unfold eval_convex_violations. rewrite (cv_tab _ _ C), K5, Hl. cbn [l_n layout_of i_mer n_pen tables_at]. rewrite firstn_exact by exact Lx.
  rewrite <- (pen_rows_length p U). unfold qp_rows in *.
  set (P := one_rows (q_x p) (hinges (q_src p)) ++ one_rows (q_x p) (absolutes (q_src p))) in *.
  set (M := merit_rows (q_x p) (q_merit p) 0 (merits (q_src p))) in *.
  replace (length P) with (length (placed (length (q_x p)) 0 P)) by apply placed_length.
  rewrite (set_viols_spec (length (q_x p)) (q_x p) (q_cvx p') (length (q_x p)) x (fun _ r => linear (q_x p) r x) (merit_chunks (q_x p) (q_merit p) 0 (merits (q_src p)))) with
    (off := (0 + length (slack_costs P))%nat) (B := map (fun i => [(i, 1)]) (seq 0 (length (q_x p) + length (slack_costs (qp_rows p))))) (A' := map (fun mr => rconst (q_x p) (snd mr)) P) (B' := []).
  - rewrite viols_at_linear. f_equal. rewrite (merit_chunks_map _ (fun r => bound_viol (r_bnd r) (linear (q_x p) r x))) by reflexivity. reflexivity.
  - intros off mr Hm. rewrite merit_chunks_concat in Hm. apply merit_value; [exact Lx|]. rewrite app_assoc in T. fold P in T. rewrite Forall_app in T. destruct T as (_ & T). rewrite Forall_forall in T. apply (T mr Hm).
  - apply (merit_infos (length (q_x p))). apply U.
  - rewrite (cv_mat _ _ C). unfold qp_rows at 1. rewrite app_assoc. fold P. rewrite placed_app, merit_chunks_concat, <- app_assoc. reflexivity.
  - rewrite (cv_const _ _ C). unfold qp_rows. rewrite app_assoc. fold P. rewrite map_app, merit_chunks_concat, app_nil_r. reflexivity.
  - rewrite placed_length, map_length. reflexivity.
Qed.
Lemma rows_of_map (g : bnd R -> R -> R) js vs bs ws : length vs = length js -> length bs = length js -> length ws = length js ->
  map (fun r => g (r_bnd r) (r_val r)) (rows_of js vs bs ws) = map (fun p => g (fst p) (snd p)) (combine bs vs).
Proof. revert vs bs ws. induction js; intros [|] [|] [|]; cbn; intros; try discriminate; auto. f_equal. apply IHjs; auto. Qed.
Definition exact_viol (x : list R) (t : term R) : R := rsum (fun r => bound_viol (r_bnd r) (r_val r)) (term_rows x t).
Lemma exact_violation_spec x (t : term R) : comp_ok (tm_at t x) -> exact_violation (tm_at t x) = Val (exact_viol x t).
Proof.
  intros C. pose proof C as (A1 & A2 & A3 & A4). unfold exact_violation, exact_viol. pose proof (term_rows_length x t C) as Lr.
  destruct (Nat.eqb_spec (cm_rows (tm_at t x)) 0) as [Z|Z].
  - rewrite Z in Lr. destruct (term_rows x t); [reflexivity|discriminate].
  - rewrite (proj2 (Nat.eqb_eq _ _) A1). unfold bounds_violations. rewrite sized_val by congruence. cbn [rbind]. f_equal. rewrite vsum_R. unfold rsum, term_rows, comp_rows.
    rewrite (rows_of_map bound_viol) by congruence. reflexivity.
Qed.
Lemma mapr_val {A B} (f : A -> res B) g l : (forall a, In a l -> f a = Val (g a)) -> mapr f l = Val (map g l).
Proof. induction l as [|a l IH]; intros H; [reflexivity|]. cbn [mapr map]. rewrite (H a) by (left; reflexivity). cbn [rbind]. rewrite IH by (intros; apply H; right; assumption). reflexivity. Qed.
Lemma exact_violations_conv p p' : inv p -> q_init p = true -> all_usable p -> convexified p p' -> exact_violations p' = Val (map (exact_viol (q_x p)) (merits (q_src p))).
Proof.
  intros I H U C. pose proof (cv_keep _ _ C) as (K1 & K2 & K3 & K4 & K5 & K6 & K7). unfold exact_violations. rewrite K1, K5, (iv_lay p I H). cbn [l_mer layout_of].
  apply mapr_val. intros t Ht. apply exact_violation_spec. destruct U as (_ & _ & _ & U). rewrite Forall_forall in U. apply (U t Ht).
Qed.

(** the linearisation at its own point: off by what the dropped entries contribute *)
Lemma thr_close v : Rabs (v - thr v) <= / 10 ^ 7.
Proof.
  unfold thr. change (ndec 1 (-7)) with (1 / 10 ^ 7). rnum. destruct (Rltb_spec (Rabs v) (1 / 10 ^ 7)) as [L|L].
  - rewrite Rminus_0_r. unfold Rdiv in L. lra.
  - rewrite Rminus_diag_eq by reflexivity. rewrite Rabs_R0. apply Rlt_le, Rinv_0_lt_compat, pow_lt. lra.
Qed.
Lemma thr_id v : v = 0 \/ / 10 ^ 7 <= Rabs v -> thr v = v.
Proof.
  unfold thr. change (ndec 1 (-7)) with (1 / 10 ^ 7). rnum. destruct (Rltb_spec (Rabs v) (1 / 10 ^ 7)) as [L|L]; [|reflexivity]. intros [->|G]; [reflexivity|]. unfold Rdiv in L. lra.
Qed.
Definition row_gap (x0 : list R) (r : crow) : R := / 10 ^ 7 * rsum (fun cv => Rabs (nth (fst cv) x0 0)) (r_jac r).
Lemma rsum_abs {A} (f : A -> R) l : Rabs (rsum f l) <= rsum (fun a => Rabs (f a)) l.
Proof. induction l as [|a l IH]; [rewrite !rsum_nil, Rabs_R0; lra|]. rewrite !rsum_cons. eapply Rle_trans; [apply Rabs_triang|]. lra. Qed.
Lemma linear_gap x0 r : Rabs (linear x0 r x0 - r_val r) <= row_gap x0 r.
Proof.
  unfold linear, row_gap. replace (_ - r_val r) with (- (srow_dot (r_jac r) x0 - srow_dot (thr_row (r_jac r)) x0)) by ring. rewrite Rabs_Ropp, !srow_dot_R. unfold thr_row. rewrite rsum_map.
  replace (_ - _) with (rsum (fun cv => (snd cv - thr (snd cv)) * nth (fst cv) x0 0) (r_jac r)).
  - eapply Rle_trans; [apply rsum_abs|]. rewrite <- rsum_scal. apply rsum_le. intros cv _. rewrite Rabs_mult. apply Rmult_le_compat_r; [apply Rabs_pos|apply thr_close].
  - induction (r_jac r) as [|cv l IH]; [rewrite !rsum_nil; ring|]. rewrite !rsum_cons, IH. cbn [fst snd]. ring.
Qed.
Lemma linear_exact x0 r : no_small r -> linear x0 r x0 = r_val r.
Proof.
  intros F. unfold linear. replace (thr_row (r_jac r)) with (r_jac r); [ring|]. unfold thr_row. induction F as [|cv l Hc _ IH]; [reflexivity|]. cbn [map]. rewrite <- IH, thr_id by exact Hc. destruct cv; reflexivity.
Qed.
Lemma viol_lip (b : bnd R) u v : proper b -> Rabs (bound_viol b u - bound_viol b v) <= Rabs (u - v).
Proof.
  intros Hp. rewrite !bound_viol_abs. 
  destruct (bound_cases b u Hp) as [(lo & El & Hu & Eu & _)|[(hi & Eh & Hu & Eu & _)|((A & B) & Eu & _)]];
  destruct (bound_cases b v Hp) as [(lo' & El' & Hv & Ev & _)|[(hi' & Eh' & Hv & Ev & _)|((A' & B') & Ev & _)]]; rewrite Eu, Ev;
  repeat match goal with
  | X : b_lo b = Some ?a, Y : b_lo b = Some ?c |- _ => rewrite X in Y; injection Y as Y
  | X : b_hi b = Some ?a, Y : b_hi b = Some ?c |- _ => rewrite X in Y; injection Y as Y
  end; subst;
  try (pose proof (A _ El')); try (pose proof (B _ Eh')); try (pose proof (A' _ El)); try (pose proof (B' _ Eh));
  try (assert (lo <= hi') by (apply (Hp lo hi'); assumption)); try (assert (lo' <= hi) by (apply (Hp lo' hi); assumption));
  unfold Rabs; repeat destruct (Rcase_abs _); lra.
Qed.

Theorem C16_convex_violations : forall p : qp R, reach p -> q_init p = true -> all_usable p ->
  exists p', convexify sqrt p = Val p' /\ forall x s, length x = length (q_x p) ->
    eval_convex_violations p' (x ++ s) = Val (map (lin_violation (q_x p) x) (merits (q_src p))).
Proof.
  intros p Re H U. pose proof (reach_inv p Re) as I. destruct (convexify_spec p I H U) as (p' & E & C). exists p'. split; [exact E|]. intros x s Lx. apply (eval_violations_conv p p'); auto.
Qed.
Print Assumptions C16_convex_violations.

Lemma rsum_diff {A} (f g h : A -> R) l : (forall a, In a l -> Rabs (f a - g a) <= h a) -> Rabs (rsum f l - rsum g l) <= rsum h l.
Proof.
  induction l as [|a l IH]; intros H; [rewrite !rsum_nil, Rminus_0_r, Rabs_R0; lra|]. rewrite !rsum_cons.
  replace (_ - _) with ((f a - g a) + (rsum f l - rsum g l)) by ring. eapply Rle_trans; [apply Rabs_triang|]. apply Rplus_le_compat; [apply H; left; reflexivity|apply IH; intros; apply H; right; assumption].
Qed.
(** At the point of linearisation the convex violations are the exact ones, up to what Jacobian entries
    below 1e-7 contribute, and equal to them if there are none. *)
Theorem C16_touches_partial : forall p : qp R, reach p -> q_init p = true -> all_usable p ->
  exists p' conv exact, convexify sqrt p = Val p' /\ (forall s, eval_convex_violations p' (q_x p' ++ s) = Val conv) /\ exact_violations p' = Val exact /\
    Forall2 (fun ab t => Rabs (fst ab - snd ab) <= rsum (row_gap (q_x p)) (term_rows (q_x p) t)) (combine conv exact) (merits (q_src p)) /\
    (Forall (fun t => Forall no_small (term_rows (q_x p) t)) (merits (q_src p)) -> conv = exact).
Proof.
  intros p Re H U. pose proof (reach_inv p Re) as I. destruct (convexify_spec p I H U) as (p' & E & C). pose proof (cv_keep _ _ C) as (K1 & _).
  exists p', (map (lin_violation (q_x p) (q_x p)) (merits (q_src p))), (map (exact_viol (q_x p)) (merits (q_src p))).
  split; [exact E|]. split; [intros s; rewrite K1; apply (eval_violations_conv p p'); auto|]. split; [apply exact_violations_conv; auto|]. destruct U as (_ & _ & _ & U). split.
  - clear -U. induction U as [|t ts Ut _ IH]; [constructor|]. cbn [map combine]. constructor; [|exact IH]. cbn [fst snd]. apply rsum_diff. intros r Hr.
    eapply Rle_trans; [apply viol_lip|apply linear_gap]. pose proof (usable_rows _ _ _ _ Ut) as F. rewrite Forall_forall in F. apply (F r Hr).
  - intros F. apply map_ext_in. intros t Ht. rewrite Forall_forall in F. specialize (F t Ht). rewrite Forall_forall in F. apply rsum_ext. intros r Hr. rewrite linear_exact by (apply F, Hr). reflexivity.
Qed.
Print Assumptions C16_touches_partial.

(** ** The squared costs in the QP objective (C84) *)
(** Gauss-Newton value of a squared cost: coefficient times square of the linearised distance to the target. *)
Definition gn_cost (x0 y : list R) (t : term R) : R := rsum (gn x0 y) (term_rows x0 t).
Definition nonneg_objectives (p : qp R) : Prop := Forall (fun t => Forall (fun w => 0 <= w) (cm_coeffs (tm_at t (q_x p)))) (objectives (q_src p)).
Definition objective_value (p : qp R) (y : list R) : R :=
  qform (length (q_x p)) (c_hess (q_cvx p)) y + vdot (firstn (length (q_x p)) (c_grad (q_cvx p))) y.

Lemma nth_thr (m : list (list R)) i k : nth k (nth i (map (map thr) m) []) 0 = thr (nth k (nth i m []) 0).
Proof.
  destruct (Nat.lt_ge_cases i (length m)) as [L|L].
  - rewrite (nth_map_d (map thr) m i [] []) by exact L. destruct (Nat.lt_ge_cases k (length (nth i m []))) as [L'|L'].
    + rewrite (nth_map_d thr _ k 0 0) by exact L'. reflexivity.
    + rewrite !nth_overflow by (rewrite ?map_length; lia). symmetry. apply thr0.
  - rewrite (nth_overflow (map _ _)) by (rewrite map_length; exact L). rewrite (nth_overflow m) by exact L. destruct k; symmetry; apply thr0.
Qed.
Lemma bigsum_diff n f g h : (forall i, (i < n)%nat -> Rabs (f i - g i) <= h i) -> Rabs (bigsum n f - bigsum n g) <= bigsum n h.
Proof. intros H. apply rsum_diff. intros i Hi. apply in_seq in Hi. apply H. lia. Qed.
Lemma bigsum_abs_nth (y : list R) : bigsum (length y) (fun i => Rabs (nth i y 0)) = rsum Rabs y.
Proof.
  rewrite <- (map_length Rabs y). rewrite (bigsum_ext _ _ (fun i => nth i (map Rabs y) 0)).
  - rewrite <- rsum_sum_nth, rsum_map. reflexivity.
  - intros i Hi. rewrite map_length in Hi. rewrite (nth_map_d Rabs y i 0 0) by exact Hi. reflexivity.
Qed.
Lemma qform_thr m y : Rabs (qform (length y) (map (map thr) m) y - qform (length y) m y) <= / 10 ^ 7 * (rsum Rabs y) ^ 2.
Proof.
  rewrite <- bigsum_abs_nth. replace (_ * _ ^ 2) with (bigsum (length y) (fun i => bigsum (length y) (fun k => Rabs (nth i y 0) * / 10 ^ 7 * Rabs (nth k y 0)))).
  - apply bigsum_diff. intros i Hi. apply bigsum_diff. intros k Hk. rewrite nth_thr. set (a := nth k (nth i m []) 0).
    replace (_ - _) with (- (nth i y 0 * (a - thr a) * nth k y 0)) by ring. rewrite Rabs_Ropp, !Rabs_mult. apply Rmult_le_compat_r; [apply Rabs_pos|]. apply Rmult_le_compat_l; [apply Rabs_pos|apply thr_close].
  - set (s := bigsum (length y) (fun i => Rabs (nth i y 0))). rewrite (bigsum_ext _ _ (fun i => / 10 ^ 7 * s * Rabs (nth i y 0))).
    + rewrite bigsum_scal. fold s. ring.
    + intros i _. rewrite bigsum_scal. fold s. ring.
Qed.

Lemma gauss_newton_conv p p' : convexified p p' -> nonneg_objectives p -> exists k, forall y, length y = length (q_x p) ->
  Rabs (objective_value p' y + k - rsum (gn_cost (q_x p) y) (objectives (q_src p))) <= / 10 ^ 7 * (rsum Rabs y) ^ 2.
Proof.
  intros C N. pose proof (cv_obj _ _ C) as (q & (_ & _ & _ & Lq & _) & _ & Eg & Eh & Hm). pose proof (cv_keep _ _ C) as (K1 & _).
  exists (rsum (fun v => v) (qe_const q)). intros y Ly. destruct (Hm N y Ly) as (_ & Hs).
  rewrite rsum_flat_map in Hs. unfold objective_value. rewrite K1, Eg, Eh, firstn_exact by exact Lq.
  replace (rsum (gn_cost (q_x p) y) (objectives (q_src p))) with (rsum (fun v => v) (qe_const q) + vdot (qe_obj_lin q) y + qform (length (q_x p)) (qe_obj_quad q) y).
  - rewrite <- Ly. replace (_ - _) with (qform (length y) (map (map thr) (qe_obj_quad q)) y - qform (length y) (qe_obj_quad q) y) by ring. apply qform_thr.
  - rewrite Hs. apply rsum_ext. intros t _. rewrite rsum_map. reflexivity.
Qed.
Theorem C84_gauss_newton : forall p : qp R, reach p -> q_init p = true -> all_usable p -> nonneg_objectives p ->
  exists p' k, convexify sqrt p = Val p' /\ forall y, length y = length (q_x p) ->
    Rabs (objective_value p' y + k - rsum (gn_cost (q_x p) y) (objectives (q_src p))) <= / 10 ^ 7 * (rsum Rabs y) ^ 2.
Proof.
  intros p Re H U N. pose proof (reach_inv p Re) as I. destruct (convexify_spec p I H U) as (p' & E & C).
  destruct (gauss_newton_conv p p' C N) as (k & G). exists p', k. auto.
Qed.
Print Assumptions C84_gauss_newton.

Lemma segment_sums_spec (cs : list (list R)) : forall A, segment_sums (A ++ concat cs) (map (@length R) cs) (length A) = Val (map (rsum (fun v => v)) cs).
Proof.
  induction cs as [|c cs IH]; intros A; [reflexivity|]. cbn [concat map segment_sums]. rewrite segment_mid by reflexivity. cbn [rbind].
  rewrite <- app_length, app_assoc, IH. cbn [rbind]. rewrite vsum_R. unfold rsum. rewrite map_id. reflexivity.
Qed.
Lemma viol_inside (b : bnd R) v : proper b -> inside b v -> bound_viol b v = 0.
Proof.
  intros Hp (A & B). rewrite bound_viol_abs. destruct (bound_cases b v Hp) as [(lo & El & Hu & _)|[(hi & Eh & Hu & _)|(_ & E & _)]].
  - specialize (A lo El). lra.
  - specialize (B hi Eh). lra.
  - rewrite E. apply Rabs_R0.
Qed.
Lemma skipn_add {A} (l : list A) b : forall a, skipn a (skipn b l) = skipn (b + a) l.
Proof. revert b. induction l as [|x l IH]; intros b a; [now rewrite !skipn_nil|]. destruct b; [reflexivity|]. cbn [skipn Nat.add]. apply IH. Qed.
Definition full_value (n : nat) (x0 x s : list R) (off : nat) (r : crow) : R := rconst x0 r + srow_dot (leftcols (n + length s) (prow n off r)) (x ++ s).
Lemma viol_at_zero n x0 x s l l' : length x = n -> Forall (fun mr => in_cols n (snd mr) /\ typed (snd mr)) l -> forall off, (off <= length s)%nat ->
  sfeas x0 x (l ++ l') (skipn off s) ->
  viol_at (full_value n x0 x s) off l = repeat 0 (length l) /\ (off + length (slack_costs l) <= length s)%nat /\ sfeas x0 x l' (skipn (off + length (slack_costs l)) s).
Proof.
  intros Lx F. induction F as [|mr l (Hc & Ht) _ IH]; intros off Lo S.
  - cbn. rewrite Nat.add_0_r. auto.
  - cbn [app sfeas] in S. destruct S as (L1 & Hn & Hi & S). rewrite skipn_add in S. rewrite skipn_length in L1.
    assert (Lc : length (slack_costs (mr :: l)) = (length (signs (snd mr)) + length (slack_costs l))%nat) by (unfold slack_costs; cbn [flat_map]; rewrite app_length, map_length; reflexivity).
    destruct (IH (off + length (signs (snd mr)))%nat ltac:(lia) S) as (E & L2 & S'). rewrite Lc, Nat.add_assoc.
    split; [|split; [lia|exact S']]. cbn [viol_at length repeat]. rewrite E. f_equal. apply viol_inside; [apply Ht|]. unfold full_value.
    rewrite pen_value by (auto; lia). rewrite vdot_firstn in Hi. exact Hi.
Qed.
Lemma viols_at_zero n x0 x s l' Ls : length x = n -> Forall (fun mr => in_cols n (snd mr) /\ typed (snd mr)) (concat Ls) -> forall off, (off <= length s)%nat ->
  sfeas x0 x (concat Ls ++ l') (skipn off s) -> viols_at (full_value n x0 x s) off Ls = repeat 0 (length Ls).
Proof.
  intros Lx. induction Ls as [|l Ls IH]; intros F off Lo S; [reflexivity|]. cbn [concat] in *. rewrite Forall_app in F. destruct F as (F1 & F2). rewrite <- app_assoc in S.
  destruct (viol_at_zero n x0 x s l (concat Ls ++ l') Lx F1 off Lo S) as (E & L & S'). cbn [viols_at length repeat]. rewrite E, IH by auto. f_equal.
  generalize (length l). intros k. induction k; [reflexivity|]. cbn [repeat]. rewrite rsum_cons, IHk. ring.
Qed.

Lemma viols_at_length vf off Ls : length (viols_at vf off Ls) = length Ls.
Proof. revert off. induction Ls; intros; cbn; auto. Qed.
(** What evaluateConvexCosts returns: the Gauss-Newton values of the
    squared costs; at a point that satisfies the QP zero for every hinge and absolute cost, because the
    slack columns are counted in. *)
Lemma eval_costs_any p p' : inv p -> q_init p = true -> all_usable p -> convexified p p' -> nonneg_objectives p ->
  (objectives (q_src p) = [] \/ (0 < rows_at (q_x p) (objectives (q_src p)))%nat) ->
  forall x s, length x = length (q_x p) -> length (x ++ s) = length (c_grad (q_cvx p')) ->
  exists pen, eval_convex_costs p' (x ++ s) = Val (map (gn_cost (q_x p) x) (objectives (q_src p)) ++ pen) /\
    length pen = (length (hinges (q_src p)) + length (absolutes (q_src p)))%nat /\
    (qp_feasible (q_cvx p') (x ++ s) -> pen = repeat 0 (length (hinges (q_src p)) + length (absolutes (q_src p)))) /\
    pen = viols_at (full_value (length (q_x p)) (q_x p) x s) 0 (one_chunks (q_x p) (hinges (q_src p)) ++ one_chunks (q_x p) (absolutes (q_src p))).
Proof.
  intros I H U C N Hz x s Lx Ls. pose proof (cv_keep _ _ C) as (K1 & K2 & K3 & K4 & K5 & K6 & K7). pose proof (iv_lay p I H) as Hl. pose proof (all_rows_typed p U) as T.
  pose proof (cv_obj _ _ C) as (q & (Q1 & Q2 & Q3 & Lq & _) & Qs & Eg & Eh & Hm). specialize (Hm N x Lx). destruct Hm as (Hv & _).
  assert (Lc : length s = length (slack_costs (qp_rows p))) by (rewrite Eg, !app_length in Ls; lia).
  unfold eval_convex_costs. rewrite <- Ls, Nat.eqb_refl, (cv_tab _ _ C), K5, Hl. cbn [l_n layout_of i_obj i_pen n_obj tables_at]. rewrite firstn_exact by exact Lx.
  assert (O : match infos IObjective (q_x p) (objectives (q_src p)) with
      | [] => Val []
      | _ => match c_nlp (q_cvx p') with
             | Some q => if (length (qe_const q) =? rows_at (q_x p) (objectives (q_src p)))%nat
                         then rbind (qe_values q x) (fun vs => segment_sums vs (map in_rows (infos IObjective (q_x p) (objectives (q_src p)))) 0) else Bad
             | None => if (length (q_x p) =? 0)%nat then segment_sums [] (map in_rows (infos IObjective (q_x p) (objectives (q_src p)))) 0 else Bad
             end
      end = Val (map (gn_cost (q_x p) x) (objectives (q_src p)))).
  { destruct Hz as [Z|Z]; [rewrite Z; reflexivity|]. rewrite (Qs Z), Q1, Nat.eqb_refl, Hv. cbn [rbind].
    rewrite flat_map_concat_map. pose proof (segment_sums_spec (map (fun t => map (gn (q_x p) x) (term_rows (q_x p) t)) (objectives (q_src p))) []) as Sg. cbn [app length] in Sg.
    rewrite map_map in Sg. replace (map in_rows (infos IObjective (q_x p) (objectives (q_src p)))) with (map (fun t => length (map (gn (q_x p) x) (term_rows (q_x p) t))) (objectives (q_src p))).
    - rewrite Sg. rewrite map_map. replace (map (gn_cost (q_x p) x) (objectives (q_src p))) with (map (fun t => rsum (fun v => v) (map (gn (q_x p) x) (term_rows (q_x p) t))) (objectives (q_src p)))
        by (apply map_ext; intros t; rewrite rsum_map; reflexivity). destruct (infos _ _ _) eqn:Ei; [|reflexivity]. destruct (objectives (q_src p)); [reflexivity|discriminate].
    - unfold infos. rewrite map_map. apply map_ext_in. intros t Ht. cbn [in_rows info_of]. rewrite map_length. apply term_rows_length. destruct U as (U & _). rewrite Forall_forall in U. apply (U t Ht). }
  rewrite O. cbn [rbind].
  set (Ls0 := one_chunks (q_x p) (hinges (q_src p)) ++ one_chunks (q_x p) (absolutes (q_src p))).
  assert (Ec : concat Ls0 = one_rows (q_x p) (hinges (q_src p)) ++ one_rows (q_x p) (absolutes (q_src p))) by (unfold Ls0; rewrite concat_app, !one_chunks_concat; reflexivity).
  assert (Er : qp_rows p = concat Ls0 ++ merit_rows (q_x p) (q_merit p) 0 (merits (q_src p))) by (rewrite Ec, <- app_assoc; reflexivity).
  rewrite (set_viols_spec (length (q_x p)) (q_x p) (q_cvx p') (length (x ++ s)) (x ++ s) (full_value (length (q_x p)) (q_x p) x s) Ls0) with (off := 0%nat) (A := []) (A' := [])
    (B := placed (length (q_x p)) (0 + length (slack_costs (concat Ls0))) (merit_rows (q_x p) (q_merit p) 0 (merits (q_src p))) ++ map (fun i => [(i, 1)]) (seq 0 (length (q_x p) + length (slack_costs (qp_rows p)))))
    (B' := map (fun mr => rconst (q_x p) (snd mr)) (merit_rows (q_x p) (q_merit p) 0 (merits (q_src p)))).
  - cbn [rbind]. eexists. split; [reflexivity|]. split; [rewrite viols_at_length; unfold Ls0, one_chunks; rewrite app_length, !map_length; reflexivity|].
    split; [|reflexivity]. intros F. apply (feasible_split p p' x s C I H U Lx Lc) in F. destruct F as (_ & F). rewrite Er in F, T. rewrite Forall_app in T.
    rewrite (viols_at_zero (length (q_x p)) (q_x p) x s (merit_rows (q_x p) (q_merit p) 0 (merits (q_src p))) Ls0 Lx (proj1 T) 0 ltac:(lia) F).
    unfold Ls0, one_chunks. rewrite app_length, !map_length. reflexivity.
  - intros off mr _. unfold full_value. rewrite app_length, Lx. reflexivity.
  - unfold Ls0. destruct U as (_ & U2 & U3 & _). apply Forall2_app; eapply one_infos; eassumption.
  - rewrite (cv_mat _ _ C). rewrite Er at 1. rewrite placed_app, <- app_assoc. reflexivity.
  - rewrite (cv_const _ _ C), Er, map_app. reflexivity.
  - reflexivity.
Qed.
Lemma eval_costs_conv p p' : inv p -> q_init p = true -> all_usable p -> convexified p p' -> nonneg_objectives p ->
  (objectives (q_src p) = [] \/ (0 < rows_at (q_x p) (objectives (q_src p)))%nat) ->
  forall x s, length x = length (q_x p) -> length (x ++ s) = length (c_grad (q_cvx p')) -> qp_feasible (q_cvx p') (x ++ s) ->
  eval_convex_costs p' (x ++ s) = Val (map (gn_cost (q_x p) x) (objectives (q_src p)) ++ repeat 0 (length (hinges (q_src p)) + length (absolutes (q_src p)))).
Proof. intros I H U C N Hz x s Lx Ls F. destruct (eval_costs_any p p' I H U C N Hz x s Lx Ls) as (pen & E & _ & Z & _). rewrite E, (Z F). reflexivity. Qed.
Theorem C22_convex_penalties_zero : forall p : qp R, reach p -> q_init p = true -> all_usable p -> nonneg_objectives p ->
  (objectives (q_src p) = [] \/ (0 < rows_at (q_x p) (objectives (q_src p)))%nat) ->
  exists p', convexify sqrt p = Val p' /\ forall x s, length x = length (q_x p) -> length (x ++ s) = length (c_grad (q_cvx p')) -> qp_feasible (q_cvx p') (x ++ s) ->
    eval_convex_costs p' (x ++ s) = Val (map (gn_cost (q_x p) x) (objectives (q_src p)) ++ repeat 0 (length (hinges (q_src p)) + length (absolutes (q_src p)))).
Proof.
  intros p Re H U N Hz. pose proof (reach_inv p Re) as I. destruct (convexify_spec p I H U) as (p' & E & C). exists p'. split; [exact E|]. apply eval_costs_conv; auto.
Qed.
Print Assumptions C22_convex_penalties_zero.
