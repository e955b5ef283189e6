(** * IfoptQPProblem: total cost, examples and counterexamples *)
From Coq Require Import List ZArith Bool Arith Reals Lra Lia.
From Verif Require Import Num NumFacts RSums IfoptModel IfoptProofs ExprsModel ExprsProps ModelingSpec QpModel QpSpec QpProofs QpSlackProofs QpEvalProofs QpProps QpCaseProps IfoptQpModel IfoptQpProofs IfoptQpProps.
Import ListNotations.
Local Open Scope R_scope.

(** ** The total convex cost (C87) *)
(** With one squared cost set whose coefficients are one, the total convex cost is the Gauss-Newton
    model of the total exact cost: sum of the squares of the linearised errors. *)
Theorem C87_total_partial : forall (p : iqp R) t, ireach p -> iusable p -> iq_raw p = [t] -> iq_costs p = [(PSquared, t)] -> Forall (fun w => w = 1) (cm_coeffs (t (iq_x p))) ->
  exists p', iconvexify sqrt p = Val p' /\ iexact_total p' = Val (rsum (fun r => err r ^ 2) (comp_rows (t (iq_x p)))) /\
    forall d s, length d = length (iq_x p) ->
      Rabs (ieval_total p' (vplus (iq_x p) d ++ s) - rsum (fun r => (err r + srow_dot (r_jac r) d) ^ 2) (comp_rows (t (iq_x p)))) <= / 10 ^ 7 * (rsum Rabs d) ^ 2.
Proof.
  intros p t Re U Er Ec W. destruct (C86_convex_costs p Re U) as (p' & E & X & _ & D). exists p'. split; [exact E|]. rewrite Ec in X, D.
  assert (Cc : iq_costs p' = [(PSquared, t)]).
  { destruct (iconvexify_spec p (ireach_inv p Re) U) as (p'' & E' & C). rewrite E in E'. injection E' as <-. rewrite (ic_costs _ _ C). exact Ec. }
  split. { unfold iexact_total. rewrite Cc. unfold iexact_costs in X. rewrite X. reflexivity. }
  intros d s Ld. destruct (D d s Ld) as (delta & Ev & Hd). unfold ieval_total. rewrite Ev. cbn [map]. rewrite vsum_R. cbn [Rsum]. unfold exact_cost. cbn [fst snd].
  replace (_ - _) with (delta - step_change (cost_rows p) d); [exact Hd|]. unfold cost_rows. rewrite Er. cbn [flat_map]. rewrite app_nil_r. unfold step_change.
  assert (Ok : comp_ok (t (iq_x p))) by (destruct U as (_ & U & _); rewrite Er in U; inversion U; tauto).
  destruct (comp_rows_spec _ Ok) as (_ & _ & _ & _ & Ew). rewrite <- Ew in W. rewrite Forall_map in W. rewrite Forall_forall in W.
  rewrite (rsum_ext (fun r => 2 * (r_w r * err r) * srow_dot (r_jac r) d + Rabs (r_w r) * srow_dot (r_jac r) d ^ 2) (fun r => (err r + srow_dot (r_jac r) d) ^ 2 + (-1) * err r ^ 2)).
  - rewrite rsum_plus, rsum_scal. ring.
  - intros r Hr. rewrite (W r Hr), Rabs_R1. ring.
Qed.
Print Assumptions C87_total_partial.

(** the row [k x + c] with coefficient [w] and bound [b] *)
Definition one_row (w k c : R) (b : bnd R) : source R := tm_at (row_set false w [(0%nat, k)] c b).
Lemma one_row_rows w k c b x : comp_rows (one_row w k c b x) = [{| r_jac := [(0%nat, k)]; r_val := srow_dot [(0%nat, k)] x + c; r_bnd := b; r_w := w |}].
Proof. reflexivity. Qed.
Lemma one_row_ok w k c b x : comp_ok (one_row w k c b x).
Proof. repeat split; reflexivity. Qed.
Lemma one_row_in n w k c b x : (0 < n)%nat -> in_jac n (one_row w k c b x).
Proof. intros H. repeat constructor. exact H. Qed.
Lemma dot1 k v l : srow_dot [(0%nat, k)] (v :: l) = k * v.
Proof. rewrite srow_dot_R, rsum_cons, rsum_nil. cbn [fst snd nth]. ring. Qed.
Lemma error_equal u v : bound_error (equal_to u) v = v - u.
Proof.
  destruct (bound_cases (equal_to u) v) as [(l & [= <-] & H & E & _)|[(h & [= <-] & H & E & _)|((A & B) & E & _)]]; [intros ? ? [= <-] [= <-]; lra|rewrite E; ring..|].
  specialize (A u eq_refl). specialize (B u eq_refl). rewrite E. lra.
Qed.
(** a problem with one variable at [v] whose only sets are cost sets *)
Definition costs_only (v : R) (raw : list (source R)) (costs : list (penalty * source R)) : iqp R := with_sets (iqp_new [v] [free]) raw costs [].
Lemma costs_setup v raw costs : exists p, isetup (costs_only v raw costs) = Val p /\ iq_x p = [v] /\ iq_raw p = raw /\ iq_costs p = costs /\ iq_cnts p = [].
Proof. eexists. split; [reflexivity|]. cbn. auto. Qed.
Lemma costs_usable (p : iqp R) : iq_cnts p = [] -> (0 < length (iq_x p))%nat -> (forall t, In t (iq_raw p) -> exists w k c b, t = one_row w k c b) -> (forall kt, In kt (iq_costs p) -> exists w k c b, snd kt = one_row w k c b) -> iusable p.
Proof.
  intros E L A B. split; [unfold icomps; rewrite E; constructor|]. split; apply Forall_forall.
  - intros t Ht. destruct (A t Ht) as (w & k & c & b & ->). split; [apply one_row_ok|apply one_row_in, L].
  - intros (k0, t) Hk. destruct (B _ Hk) as (w & k & c & b & Et). cbn [snd] in *. subst t. apply one_row_ok.
Qed.
Lemma costs_reach v raw costs p : isetup (costs_only v raw costs) = Val p -> ireach p.
Proof. intros E. eapply ir_setup; [| |exact E]; [constructor|reflexivity]. Qed.
Lemma abs_bound a b c : Rabs (a - b) <= c -> b - c <= a <= b + c.
Proof. intros H. unfold Rabs in H. destruct (Rcase_abs _); lra. Qed.
Ltac one_var D d := destruct (D d [] eq_refl) as (delta & Ev & Hd); apply abs_bound in Hd.
Lemma rsum_abs1 a : rsum Rabs [a] = Rabs a.
Proof. rewrite rsum_cons, rsum_nil. ring. Qed.

(** Two costs x^2, at 1: the change of the sum is predicted once for each of them, so that the step to the
    common minimum, where both are zero, is given a negative total; getTotalExactCost() is only the first. *)
Theorem C87_two_costs_refuted : exists p p' p0 : iqp R, ireach p /\ iusable p /\ iconvexify sqrt p = Val p' /\ p0 = iset_variables p' [0] /\
  iexact_costs p' = Val [1; 1] /\ iexact_costs p0 = Val [0; 0] /\ ieval_total p' (iq_x p) = 2 /\ ieval_total p' (iq_x p0) < -1 /\ iexact_total p' = Val 1.
Proof.
  set (t := one_row 1 1 0 (equal_to 0)). destruct (costs_setup 1 [t; t] [(PSquared, t); (PSquared, t)]) as (p & Es & E1 & E2 & E3 & E4). pose proof (costs_reach _ _ _ _ Es) as Re.
  assert (U : iusable p).
  { apply costs_usable; rewrite ?E1, ?E2, ?E3; auto; [intros t' [<-|[<-|[]]]|intros kt [<-|[<-|[]]]]; exists 1, 1, 0, (equal_to 0); reflexivity. }
  destruct (C86_convex_costs p Re U) as (p' & E & X & A & D). exists p, p', (iset_variables p' [0]). destruct (iconvexify_spec p (ireach_inv p Re) U) as (p'' & E' & C). rewrite E in E'. injection E' as <-.
  rewrite E1, E3 in *. cbn [map] in *.
  assert (V : forall v, exact_cost [v] (PSquared, t) = v ^ 2).
  { intros v. unfold exact_cost, t. cbn [fst snd]. rewrite one_row_rows, rsum_cons, rsum_nil. unfold err. cbn [r_bnd r_val]. rewrite error_equal, dot1. ring. }
  rewrite V in *. replace (1 ^ 2) with 1 in * by ring.
  split; [exact Re|]. split; [exact U|]. split; [exact E|]. split; [reflexivity|]. split; [exact X|]. split.
  - unfold iexact_costs, cost_values. cbn [iq_x iset_variables iq_costs]. rewrite (ic_costs _ _ C), E3. rewrite (mapr_val _ (exact_cost [0])).
    + cbn [map]. rewrite V. do 2 f_equal; [ring|f_equal; ring].
    + intros kt [<-|[<-|[]]]; apply cost_value_spec, one_row_ok.
  - split; [specialize (A []); rewrite app_nil_r in A; unfold ieval_total; rewrite A, vsum_R; cbn [Rsum]; ring|]. split.
    + one_var D [-1]. cbn [iq_x iset_variables]. unfold ieval_total. replace (vplus [1] [-1] ++ []) with [0] in Ev by (cbn; f_equal; ring). rewrite Ev, vsum_R. cbn [Rsum].
      assert (Sc : step_change (cost_rows p) [-1] = -2).
      { unfold cost_rows. rewrite E1, E2. unfold t. cbn [flat_map]. rewrite !one_row_rows. cbn [app]. unfold step_change. rewrite !rsum_cons, rsum_nil. unfold err. cbn [r_w r_bnd r_val r_jac]. rewrite error_equal, !dot1, Rabs_R1. ring. }
      rewrite Sc, rsum_abs1 in Hd. replace (Rabs (-1)) with 1 in Hd by (unfold Rabs; destruct (Rcase_abs _); lra). lra.
    + unfold iexact_total. rewrite (ic_costs _ _ C), E3. unfold iexact_costs in X. rewrite X. reflexivity.
Qed.
Print Assumptions C87_two_costs_refuted.

(** One cost, with coefficient 4 (respectively of absolute type): the exact cost ignores the coefficient
    (is not squared), the convex cost does not; again the true minimum is given a negative cost. *)
Theorem C87_weights_refuted : exists p p' p0 : iqp R, ireach p /\ iusable p /\ map fst (iq_costs p) = [PSquared] /\ iconvexify sqrt p = Val p' /\ p0 = iset_variables p' [0] /\
  iexact_costs p' = Val [1] /\ iexact_costs p0 = Val [0] /\ ieval_total p' (iq_x p0) < -2.
Proof.
  set (t := one_row 4 1 0 (equal_to 0)). destruct (costs_setup 1 [t] [(PSquared, t)]) as (p & Es & E1 & E2 & E3 & E4). pose proof (costs_reach _ _ _ _ Es) as Re.
  assert (U : iusable p).
  { apply costs_usable; rewrite ?E1, ?E2, ?E3; auto; [intros t' [<-|[]]|intros kt [<-|[]]]; exists 4, 1, 0, (equal_to 0); reflexivity. }
  destruct (C86_convex_costs p Re U) as (p' & E & X & A & D). exists p, p', (iset_variables p' [0]). destruct (iconvexify_spec p (ireach_inv p Re) U) as (p'' & E' & C). rewrite E in E'. injection E' as <-.
  rewrite E1, E3 in *. cbn [map] in *.
  assert (V : forall v, exact_cost [v] (PSquared, t) = v ^ 2).
  { intros v. unfold exact_cost, t. cbn [fst snd]. rewrite one_row_rows, rsum_cons, rsum_nil. unfold err. cbn [r_bnd r_val]. rewrite error_equal, dot1. ring. }
  rewrite V in *. replace (1 ^ 2) with 1 in * by ring.
  split; [exact Re|]. split; [exact U|]. split; [reflexivity|]. split; [exact E|]. split; [reflexivity|]. split; [exact X|]. split.
  - unfold iexact_costs, cost_values. cbn [iq_x iset_variables iq_costs]. rewrite (ic_costs _ _ C), E3. rewrite (mapr_val _ (exact_cost [0])).
    + cbn [map]. rewrite V. do 2 f_equal; ring.
    + intros kt [<-|[]]; apply cost_value_spec, one_row_ok.
  - one_var D [-1]. cbn [iq_x iset_variables]. unfold ieval_total. replace (vplus [1] [-1] ++ []) with [0] in Ev by (cbn; f_equal; ring). rewrite Ev, vsum_R. cbn [Rsum].
    assert (Sc : step_change (cost_rows p) [-1] = -4).
    { unfold cost_rows. rewrite E1, E2. unfold t. cbn [flat_map]. rewrite !one_row_rows. cbn [app]. unfold step_change. rewrite !rsum_cons, rsum_nil. unfold err. cbn [r_w r_bnd r_val r_jac]. rewrite error_equal, !dot1, Rabs_right by lra. ring. }
    rewrite Sc, rsum_abs1 in Hd. replace (Rabs (-1)) with 1 in Hd by (unfold Rabs; destruct (Rcase_abs _); lra). lra.
Qed.
Print Assumptions C87_weights_refuted.
Theorem C87_absolute_refuted : exists p p' p0 : iqp R, ireach p /\ iusable p /\ map fst (iq_costs p) = [PAbsolute] /\ iconvexify sqrt p = Val p' /\ p0 = iset_variables p' [0] /\
  iexact_costs p' = Val [4] /\ iexact_costs p0 = Val [0] /\ ieval_total p' (iq_x p0) < -11.
Proof.
  set (t := one_row 1 1 0 (equal_to 0)). destruct (costs_setup 4 [t] [(PAbsolute, t)]) as (p & Es & E1 & E2 & E3 & E4). pose proof (costs_reach _ _ _ _ Es) as Re.
  assert (U : iusable p).
  { apply costs_usable; rewrite ?E1, ?E2, ?E3; auto; [intros t' [<-|[]]|intros kt [<-|[]]]; exists 1, 1, 0, (equal_to 0); reflexivity. }
  destruct (C86_convex_costs p Re U) as (p' & E & X & A & D). exists p, p', (iset_variables p' [0]). destruct (iconvexify_spec p (ireach_inv p Re) U) as (p'' & E' & C). rewrite E in E'. injection E' as <-.
  rewrite E1, E3 in *. cbn [map] in *.
  assert (V : forall v, 0 <= v -> exact_cost [v] (PAbsolute, t) = v).
  { intros v Hv. unfold exact_cost, t. cbn [fst snd]. rewrite one_row_rows, rsum_cons, rsum_nil. unfold err. cbn [r_bnd r_val]. rewrite error_equal, dot1, Rabs_right by lra. ring. }
  rewrite V in * by lra.
  split; [exact Re|]. split; [exact U|]. split; [reflexivity|]. split; [exact E|]. split; [reflexivity|]. split; [exact X|]. split.
  - unfold iexact_costs, cost_values. cbn [iq_x iset_variables iq_costs]. rewrite (ic_costs _ _ C), E3. rewrite (mapr_val _ (exact_cost [0])).
    + cbn [map]. rewrite V by lra. reflexivity.
    + intros kt [<-|[]]; apply cost_value_spec, one_row_ok.
  - one_var D [-4]. cbn [iq_x iset_variables]. unfold ieval_total. replace (vplus [4] [-4] ++ []) with [0] in Ev by (cbn; f_equal; ring). rewrite Ev, vsum_R. cbn [Rsum].
    assert (Sc : step_change (cost_rows p) [-4] = -16).
    { unfold cost_rows. rewrite E1, E2. unfold t. cbn [flat_map]. rewrite !one_row_rows. cbn [app]. unfold step_change. rewrite !rsum_cons, rsum_nil. unfold err. cbn [r_w r_bnd r_val r_jac]. rewrite error_equal, !dot1, Rabs_right by lra. ring. }
    rewrite Sc, rsum_abs1 in Hd. replace (Rabs (-4)) with 4 in Hd by (unfold Rabs; destruct (Rcase_abs _); lra). lra.
Qed.
Print Assumptions C87_absolute_refuted.

(** ** A cost set whose addition throws (C88) *)
(** Adding a hinge cost throws; catch the exception and carry on: no exact cost, but the QP minimises its square. *)
Theorem C88_rejected_cost_refuted : exists (p0 : iqp R) t p1 p p', p0 = iqp_new [1] [free] /\ iadd_cost p0 t PHinge = (p1, true) /\ isetup p1 = Val p /\ iexact_costs p = Val [] /\
  iconvexify sqrt p = Val p' /\ 0 < vdot [1] (mat_vec (iq_hess p') [1]).
Proof.
  set (t := one_row 1 1 0 (at_least 3)). destruct (costs_setup 1 [t] []) as (p & Es & E1 & E2 & E3 & E4). pose proof (costs_reach _ _ _ _ Es) as Re.
  assert (U : iusable p). { apply costs_usable; rewrite ?E1, ?E2, ?E3; auto; [intros t' [<-|[]]; exists 1, 1, 0, (at_least 3); reflexivity|intros kt []]. }
  pose proof (ireach_inv p Re) as I. destruct (iconvexify_spec p I U) as (p' & E & C). exists (iqp_new [1] [free]), t, (costs_only 1 [t] []), p, p'.
  split; [reflexivity|]. split; [reflexivity|]. split; [exact Es|]. split; [unfold iexact_costs, cost_values; rewrite E3; reflexivity|]. split; [exact E|].
  destruct (ic_obj _ _ C) as (h & g & Eh & Sq & _ & Vh & _). assert (En : iq_n p = 1%nat) by (rewrite (ii_n p I), E1; reflexivity). rewrite En in *.
  rewrite (qbil_mat_vec 1) by (auto; rewrite Eh; apply thr_square, Sq). rewrite <- qform_qbil, Eh.
  pose proof (qform_thr h [1]) as T. cbn [length] in T. rewrite (Vh [1] eq_refl), rsum_abs1, Rabs_R1 in T. apply abs_bound in T. revert T.
  unfold cost_rows. rewrite E1, E2. unfold t. cbn [flat_map]. rewrite one_row_rows. cbn [app]. rewrite rsum_cons, rsum_nil. cbn [r_w r_jac]. rewrite dot1, Rabs_R1. intros T. lra.
Qed.
Print Assumptions C88_rejected_cost_refuted.
(** The two other types never throw, and enter both lists. *)
Theorem C88_accepted_cost_partial : forall (p : iqp R) t k, k <> PHinge ->
  exists p', iadd_cost p t k = (p', false) /\ iq_costs p' = iq_costs p ++ [(k, t)] /\ iq_raw p' = iq_raw p ++ [t] /\ iq_cnts p' = iq_cnts p /\ iq_x p' = iq_x p.
Proof. intros p t k Hk. destruct k; [eexists; split; [reflexivity|]; cbn; auto..|contradiction]. Qed.
Print Assumptions C88_accepted_cost_partial.

(** ** setup() again (C21) *)
(** setup() never depends on what earlier calls left behind: it only looks at the sets and the values. *)
Theorem C21_ifopt_setup_again : forall p p1 : iqp R, isetup p = Val p1 -> isetup p1 = Val p1 /\
  forall q, ireach q -> iq_x q = iq_x p -> iq_cnts q = iq_cnts p -> iq_costs q = iq_costs p -> exists q1, isetup q = Val q1 /\
    iq_types q1 = iq_types p1 /\ iq_box q1 = iq_box p1 /\ iq_merit q1 = iq_merit p1 /\ iq_ncost q1 = iq_ncost p1 /\
    iq_rowb q1 = iq_rowb p1 /\ iq_varb q1 = iq_varb p1 /\ iq_slackb q1 = iq_slackb p1.
Proof.
  intros p p1 E. unfold isetup in *. destruct (forallb _ (ct_bounds (istack p))) eqn:F; [|discriminate]. injection E as <-. unfold istack, icomps in *. cbn [iq_x iq_cnts]. rewrite F. split; [reflexivity|].
  intros q _ E1 E2 E3. rewrite E1, E2, E3, F. eexists. split; [reflexivity|]. cbn. repeat split; reflexivity.
Qed.
Print Assumptions C21_ifopt_setup_again.

(** ** Example: two rows, x >= 3 and 2 x = 1 with coefficients 5, at x = 1, one squared cost (x - 2)^2 *)
Definition ex_p0 : iqp R := fst (iadd_cost (iadd_constraint (iadd_constraint (iqp_new [1] [free]) (one_row 5 1 0 (at_least 3))) (one_row 5 2 0 (equal_to 1))) (one_row 1 1 0 (equal_to 2)) PSquared).
Definition ex_p : iqp R := match isetup ex_p0 with Val p => p | _ => ex_p0 end.
Lemma ex_setup : isetup ex_p0 = Val ex_p.
Proof.
  unfold ex_p. unfold isetup. replace (forallb _ _) with true; [reflexivity|]. symmetry. apply forallb_forall. unfold istack. rewrite ct_bounds_flat. cbn.
  intros b [<-|[<-|[]]]; [reflexivity|]. change {| b_lo := Some 1; b_hi := Some 1 |} with (equal_to 1). rewrite type_equal. reflexivity.
Qed.
Lemma ex_reach : ireach ex_p.
Proof. apply (ir_setup ex_p0); [repeat constructor|reflexivity|apply ex_setup]. Qed.
Lemma ex_fields : iq_x ex_p = [1] /\ iq_raw ex_p = [one_row 1 1 0 (equal_to 2)] /\ iq_costs ex_p = [(PSquared, one_row 1 1 0 (equal_to 2))] /\
  iq_cnts ex_p = [one_row 5 1 0 (at_least 3); one_row 5 2 0 (equal_to 1)] /\ iq_merit ex_p = [10; 10] /\ iq_box ex_p = [1 / 10 ^ 1] /\ iq_bnds ex_p = [free].
Proof.
  pose proof ex_setup as E. unfold isetup in E. destruct (forallb _ _); [|discriminate]. injection E as E. rewrite <- E. cbn. repeat split; reflexivity.
Qed.
Lemma ex_usable : iusable ex_p.
Proof.
  destruct ex_fields as (E1 & E2 & E3 & E4 & _). unfold iusable, icomps. rewrite E1, E2, E3, E4. split; [|split].
  - cbn [map]. repeat apply Forall_cons; try apply Forall_nil; (split; [apply one_row_ok|]; split; [apply one_row_in; cbn; lia|]); apply Forall_cons; try apply Forall_nil; [apply proper_least|apply proper_equal].
  - apply Forall_cons; [|apply Forall_nil]. split; [apply one_row_ok|apply one_row_in; cbn; lia].
  - apply Forall_cons; [|apply Forall_nil]. apply one_row_ok.
Qed.
Lemma ex_rows : cnt_rows ex_p = [{| r_jac := [(0%nat, 1)]; r_val := 1; r_bnd := at_least 3; r_w := 5 |}; {| r_jac := [(0%nat, 2)]; r_val := 2; r_bnd := equal_to 1; r_w := 5 |}].
Proof.
  destruct ex_fields as (E1 & E2 & E3 & E4 & _). unfold cnt_rows, icomps. rewrite E4, E1. cbn [map flat_map]. rewrite !one_row_rows. cbn [app]. rewrite !dot1. repeat f_equal; ring.
Qed.
Example C16_ifopt_ex : exists p', iconvexify sqrt ex_p = Val p' /\ iexact_violations p' = Val [2; 1] /\ ieval_violations p' [1; 0; 0; 0] = Val [2; 1] /\ ieval_violations p' [2; 0; 0; 0] = Val [1; 3].
Proof.
  destruct (C16_ifopt_violations ex_p ex_reach ex_usable) as (p' & E & V & A & X). destruct ex_fields as (E1 & _). rewrite E1, ex_rows in *. exists p'. split; [exact E|].
  cbn [map r_bnd r_val] in X. rewrite viol_least, viol_equal in X. replace (Rmax 0 (3 - 1)) with 2 in X by (unfold Rmax; destruct (Rle_dec _ _); lra). replace (Rabs (2 - 1)) with 1 in X by (unfold Rabs; destruct (Rcase_abs _); lra).
  split; [exact X|]. split; [exact (eq_trans (A [0; 0; 0]) X)|]. transitivity (ieval_violations p' ([2] ++ [0; 0; 0])); [reflexivity|]. rewrite (V [2] [0; 0; 0] eq_refl). cbn [map r_bnd]. unfold row_model, thr_row. cbn [r_jac r_val map fst snd]. repeat thr_num. rewrite !dot1, viol_least, viol_equal.
  f_equal. f_equal; [unfold Rmax; destruct (Rle_dec _ _); lra|]. f_equal. unfold Rabs; destruct (Rcase_abs _); lra.
Qed.
Example C15_ifopt_ex : exists p', iconvexify sqrt ex_p = Val p' /\ in_ibox p' [1] /\ islack_minimum_is p' [1] 30.
Proof.
  destruct ex_fields as (E1 & _ & _ & _ & Em & Eb & En). destruct (C15_ifopt_slack_penalty ex_p ex_reach ex_usable) as (p' & E & S); [rewrite Em; repeat apply Forall_cons; try apply Forall_nil; lra|].
  destruct (C13_ifopt_trust_region ex_p ex_reach ex_usable) as (p'' & E' & B); [rewrite En; apply Forall_cons; [apply proper_free|apply Forall_nil]|]. rewrite E in E'. injection E' as <-. exists p'. split; [exact E|].
  assert (Hb : in_ibox p' [1]).
  { apply B. rewrite E1, Eb, En. split; [reflexivity|]. intros [|i] Hi; [|cbn in Hi; lia]. cbn [nth]. split; [apply free_inside|]. rewrite closest_free, Rminus_diag_eq, Rabs_R0 by reflexivity. lra. }
  split; [exact Hb|]. specialize (S [1]). rewrite E1, ex_rows, Em in S. specialize (S eq_refl Hb). revert S. cbn [combine]. rewrite !rsum_cons, rsum_nil. cbn [fst snd r_bnd]. unfold row_model. cbn [r_val]. rewrite viol_least, viol_equal.
  match goal with |- islack_minimum_is _ _ ?v -> _ => replace v with 30; [auto|] end. unfold Rmax, Rabs. repeat destruct (Rle_dec _ _); repeat destruct (Rcase_abs _); lra.
Qed.
Example C86_ex : exists p', iconvexify sqrt ex_p = Val p' /\ iexact_costs p' = Val [1] /\ ieval_costs p' [1; 0; 0; 0] = [1] /\ Rabs (ieval_total p' [2; 0; 0; 0]) <= / 10 ^ 7.
Proof.
  destruct ex_fields as (E1 & E2 & E3 & _). destruct (C86_convex_costs ex_p ex_reach ex_usable) as (p' & E & X & A & _).
  destruct (C87_total_partial ex_p (one_row 1 1 0 (equal_to 2)) ex_reach ex_usable E2 E3) as (p'' & E' & _ & D); [rewrite E1; apply Forall_cons; [reflexivity|apply Forall_nil]|]. rewrite E in E'. injection E' as <-.
  exists p'. rewrite E1, ?E3 in *. split; [exact E|]. cbn [map] in *. assert (V : exact_cost [1] (PSquared, one_row 1 1 0 (equal_to 2)) = 1).
  { unfold exact_cost. cbn [fst snd]. rewrite one_row_rows, rsum_cons, rsum_nil. unfold err. cbn [r_bnd r_val]. rewrite error_equal, dot1. ring. }
  rewrite V in *. split; [exact X|]. split; [exact (A [0; 0; 0])|]. specialize (D [1] [0; 0; 0] eq_refl). replace (vplus [1] [1] ++ [0; 0; 0]) with [2; 0; 0; 0] in D by (cbn; f_equal; ring).
  rewrite one_row_rows, rsum_cons, rsum_nil, rsum_abs1, Rabs_R1 in D. unfold err in D. cbn [r_bnd r_val r_jac] in D. rewrite error_equal, !dot1 in D. apply abs_bound in D. apply Rabs_le. lra.
Qed.
