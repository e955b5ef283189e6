(** * Theorems about the trajopt_ifopt core (C23-C26, C28, C82) *)
From Coq Require Import List ZArith Bool Arith Reals Lra Lia.
From Verif Require Import Num NumFacts RSums IfoptModel IfoptProofs.
Import ListNotations.
Local Open Scope R_scope.

Notation b0 := {| b_lo := None; b_hi := None |} (only parsing).
Definition box (l u : R) : bnd R := {| b_lo := Some l; b_hi := Some u |}.
Definition above (l : R) : bnd R := {| b_lo := Some l; b_hi := None |}.
Definition below (u : R) : bnd R := {| b_lo := None; b_hi := Some u |}.

(** ** C23 *)
Theorem C23_projection (bs : list (bnd R)) (xs : list R) : Forall proper bs -> length xs = length bs ->
  exists ys, closest_valid_point bs xs = Val ys /\ Forall2 inside bs ys /\
    (Forall2 inside bs xs -> ys = xs) /\ closest_valid_point bs ys = Val ys /\
    (forall zs i, Forall2 inside bs zs -> (i < length bs)%nat ->
       Rabs (nth i ys 0 - nth i xs 0) <= Rabs (nth i zs 0 - nth i xs 0)).
Proof.
  intros Hp Hl. unfold closest_valid_point. rewrite sized_val by exact Hl. eexists. split; [reflexivity|].
  assert (P : forall i, (i < length bs)%nat -> proper (nth i bs b0)) by (intros i Hi; eapply Forall_forall; [exact Hp|apply nth_In, Hi]).
  set (ys := map _ _). assert (Ly : length ys = length bs) by (unfold ys; rewrite map_length, combine_length; lia).
  assert (Ny : forall i, (i < length bs)%nat -> nth i ys 0 = closest (nth i bs b0) (nth i xs 0)).
  { intros i Hi. unfold ys. rewrite (map_combine_nth _ bs xs i 0 b0 0) by (auto; lia). reflexivity. }
  assert (F : Forall2 inside bs ys).
  { apply (Forall2_nth_iff _ _ _ b0 0). split; [lia|]. intros i Hi. rewrite Ny by exact Hi. apply closest_inside, P, Hi. }
  assert (I : forall vs, Forall2 inside bs vs -> map (fun p => closest (fst p) (snd p)) (combine bs vs) = vs).
  { intros vs Fv. apply (Forall2_nth_iff _ _ _ b0 0) in Fv as [Lv Fv]. apply nth_ext with 0 0.
    - rewrite map_length, combine_length. lia.
    - intros i Hi. rewrite map_length, combine_length in Hi.
      rewrite (map_combine_nth _ bs vs i 0 b0 0) by (auto; lia). apply closest_id; [apply P; lia|apply Fv; lia]. }
  split; [exact F|]. split; [apply I|]. split.
  - rewrite sized_val by exact Ly. f_equal. apply I, F.
  - intros zs i Fz Hi. apply (Forall2_nth_iff _ _ _ b0 0) in Fz as [Lz Fz]. rewrite Ny by exact Hi.
    apply closest_nearest; [apply P, Hi|apply Fz, Hi].
Qed.
Print Assumptions C23_projection.

(** The sizes must match; otherwise an assertion fails. *)
Theorem C23_size (bs : list (bnd R)) (xs : list R) : length xs <> length bs <-> closest_valid_point bs xs = Bad.
Proof.
  unfold closest_valid_point, sized. destruct (Nat.eqb_spec (length xs) (length bs)); split; congruence.
Qed.
Print Assumptions C23_size.

Example C23_ex : Forall proper [box 0 1; above 2; below (-1)] /\ closest_valid_point [box 0 1; above 2; below (-1)] [3; 5; 0] = Val [1; 5; -1].
Proof.
  split.
  - repeat (apply Forall_cons; [intros l u E1 E2; cbn in *; try discriminate; injection E1 as <-; injection E2 as <-; lra|]). apply Forall_nil.
  - unfold closest_valid_point. rewrite sized_val by reflexivity. cbn [combine map fst snd closest b_lo b_hi box above below].
    rewrite ?nmax_R, ?nmin_R. unfold Rmax, Rmin. repeat destruct Rle_dec; try lra; reflexivity.
Qed.

(** ** C24 *)
Theorem C24_errors (bs : list (bnd R)) (xs : list R) : Forall proper bs -> length xs = length bs ->
  exists es vs, bounds_errors bs xs = Val es /\ bounds_violations bs xs = Val vs /\
    length es = length bs /\ length vs = length bs /\
    forall i b x, (i < length bs)%nat -> nth i bs b0 = b -> nth i xs 0 = x ->
      (nth i es 0 = 0 <-> inside b x) /\
      (forall l, b_lo b = Some l -> x < l -> nth i es 0 = x - l) /\
      (forall u, b_hi b = Some u -> u < x -> nth i es 0 = x - u) /\
      nth i vs 0 = Rabs (nth i es 0) /\
      (nth i vs 0 = 0 <-> inside b x) /\
      (forall z, inside b z -> nth i vs 0 <= Rabs (x - z)) /\
      inside b (x - nth i es 0).
Proof.
  intros Hp Hl. unfold bounds_errors, bounds_violations. rewrite !sized_val by exact Hl. do 2 eexists. split; [reflexivity|]. split; [reflexivity|].
  rewrite !map_length, !combine_length. split; [lia|]. split; [lia|]. intros i b x Hi Eb Ex.
  assert (P : proper b) by (subst b; eapply Forall_forall; [exact Hp|apply nth_In, Hi]).
  rewrite !(map_combine_nth _ bs xs i 0 b0 0) by (auto; lia). cbn [fst snd]. rewrite Eb, Ex, bound_viol_abs.
  split; [apply error_zero, P|]. split; [|split; [|split; [reflexivity|split; [|split]]]].
  - intros l El Hx. destruct (bound_cases b x P) as [(l' & El' & _ & -> & _)|[(u & Eu & Hu & _)|([H _] & _)]].
    + congruence.
    + pose proof (P l u El Eu). lra.
    + specialize (H l El). lra.
  - intros u Eu Hx. destruct (bound_cases b x P) as [(l & El & Hx' & _)|[(u' & Eu' & _ & -> & _)|([_ H] & _)]].
    + pose proof (P l u El Eu). lra.
    + congruence.
    + specialize (H u Eu). lra.
  - rewrite <- (error_zero b x P). split; [|intros ->; apply Rabs_R0].
    intros H. destruct (Req_dec (bound_error b x) 0) as [E|E]; [exact E|]. apply Rabs_no_R0 in E. contradiction.
  - intros z Hz. rewrite (error_closest b x P), Rabs_minus_sym, (Rabs_minus_sym x z). apply closest_nearest; assumption.
  - rewrite (error_closest b x P). replace (x - (x - closest b x)) with (closest b x) by ring. apply closest_inside, P.
Qed.
Print Assumptions C24_errors.

Example C24_ex : bounds_errors [box 0 1; above 2; below (-1)] [3; 5; 0] = Val [2; 0; 1] /\
  bounds_violations [box 0 1; above 2; below (-1)] [-3; 1; -2] = Val [3; 1; 0].
Proof.
  unfold bounds_errors, bounds_violations. rewrite !sized_val by reflexivity.
  cbn [combine map fst snd]. unfold bound_error, bound_viol, lt_lo, gt_hi, lo_or, hi_or. cbn [b_lo b_hi box above below]. rnum.
  repeat (rcase; try lra). rewrite !(Rabs_left) by lra.
  split; apply (f_equal Val); repeat (apply (f_equal2 (@cons R)); [lra|]); reflexivity.
Qed.

(** ** C25 *)
Theorem C25_stacking (ps : list (comp R)) : Forall comp_ok ps ->
  let c := ct_build StackRows ps in
  ct_rows c = list_sum (map cm_rows ps) /\
  ct_values c = Val (flat_map cm_vals ps) /\ ct_coeffs c = Val (flat_map cm_coeffs ps) /\
  ct_bounds c = flat_map cm_bounds ps /\ ct_jacobian c = Val (flat_map cm_jac ps).
Proof.
  intros H. cbn zeta. split; [rewrite ct_build_spec; reflexivity|]. split; [apply ct_values_spec, H|]. split; [apply ct_coeffs_spec, H|].
  split; [rewrite ct_build_spec; reflexivity|apply ct_jacobian_spec, H].
Qed.
Print Assumptions C25_stacking.

(** The rows of a component, in all four results, start at the number of rows added before it. *)
Theorem C25_blocks (before after : list (comp R)) (p : comp R) : Forall comp_ok (before ++ p :: after) ->
  exists vs cs js, let c := ct_build StackRows (before ++ p :: after) in
    let block {A} (l : list A) := firstn (cm_rows p) (skipn (ct_rows (ct_build StackRows before)) l) in
    ct_values c = Val vs /\ ct_coeffs c = Val cs /\ ct_jacobian c = Val js /\
    block vs = cm_vals p /\ block cs = cm_coeffs p /\ block js = cm_jac p /\ block (ct_bounds c) = cm_bounds p.
Proof.
  intros H. destruct (C25_stacking _ H) as (_ & E1 & E2 & E3 & E4). do 3 eexists. cbn zeta. rewrite E3.
  split; [exact E1|]. split; [exact E2|]. split; [exact E4|]. rewrite ct_build_spec. cbn [ct_rows].
  split; [|split; [|split]]; apply flat_map_block; eapply Forall_impl; try exact H; intros q (A & B & C & D); assumption.
Qed.
Print Assumptions C25_blocks.

(** A cost reports one row but as many coefficients as the wrapped constraint has rows, so asking the
    problem's costs for their coefficients fails an assertion as soon as a wrapped constraint does not
    have exactly one row. *)
Definition cost_comp (cost : R) (grad : srow R) (coeffs : list R) : comp R :=
  {| cm_rows := 1; cm_vals := [cost]; cm_coeffs := coeffs; cm_jac := [grad]; cm_bounds := [b0] |}.
Theorem C25_cost_coefficients_refuted cost grad (coeffs : list R) : length coeffs <> 1%nat ->
  ct_coeffs (problem_costs [cost_comp cost grad coeffs]) = Bad.
Proof.
  intros H. unfold ct_coeffs. cbn. unfold add_block. cbn [length]. rewrite (proj2 (Nat.eqb_neq _ _) H), andb_false_r. reflexivity.
Qed.
Print Assumptions C25_cost_coefficients_refuted.

Definition compA : comp R := {| cm_rows := 2; cm_vals := [1; 2]; cm_coeffs := [3; 4]; cm_jac := [[(0%nat, 5)]; [(1%nat, 6); (2%nat, 7)]]; cm_bounds := [box 0 1; above 2] |}.
Definition compB : comp R := {| cm_rows := 0; cm_vals := []; cm_coeffs := []; cm_jac := []; cm_bounds := [] |}.
Definition compC : comp R := {| cm_rows := 1; cm_vals := [8]; cm_coeffs := [9]; cm_jac := [[(2%nat, 1)]]; cm_bounds := [below 0] |}.
Example C25_ex : Forall comp_ok [compA; compB; compC] /\ ct_values (ct_build StackRows [compA; compB; compC]) = Val [1; 2; 8].
Proof.
  assert (F : Forall comp_ok [compA; compB; compC]) by (repeat constructor).
  split; [exact F|]. apply ct_values_spec, F.
Qed.

(** ** C26 *)
(** With two cost terms the problem's cost is the value of the first one, and likewise its gradient. *)
Theorem C26_refuted :
  (forall ps : list (comp R), Forall comp_ok ps -> Forall (fun p => cm_rows p = 1%nat) ps ->
     evaluate_cost ps = Val (hd 0 (flat_map cm_vals ps)) /\
     evaluate_cost_gradient ps = Val (hd [] (flat_map cm_jac ps))) /\
  exists p q : comp R, Forall comp_ok [p; q] /\ cm_rows p = 1%nat /\ cm_rows q = 1%nat /\
    cm_vals p = [1] /\ cm_vals q = [1] /\ evaluate_cost [p; q] = Val 1 /\
    (exists r, evaluate_cost_gradient [p; q] = Val r /\ srow_dot r [1; 1] = 1 /\
       Rsum (map (fun r => srow_dot r [1; 1]) (cm_jac p ++ cm_jac q)) = 2).
Proof.
  assert (G : forall ps : list (comp R), Forall comp_ok ps -> Forall (fun p => cm_rows p = 1%nat) ps ->
     evaluate_cost ps = Val (hd 0 (flat_map cm_vals ps)) /\
     evaluate_cost_gradient ps = Val (hd [] (flat_map cm_jac ps))).
  { intros ps H H1. destruct (C25_stacking ps H) as (Er & Ev & _ & _ & Ej). unfold evaluate_cost, evaluate_cost_gradient, problem_costs.
    cbn zeta. rewrite Er, Ev, Ej. destruct ps as [|p ps]; [split; reflexivity|].
    inversion_clear H1. inversion_clear H. destruct H1 as (Lv & _ & Lj & _). cbn [map list_sum flat_map].
    change (list_sum (cm_rows p :: map cm_rows ps)) with (cm_rows p + list_sum (map cm_rows ps))%nat. rewrite H0 in *.
    cbn [plus Nat.ltb Nat.leb rbind]. destruct (cm_vals p), (cm_jac p); try discriminate. split; reflexivity. }
  split; [exact G|].
  exists (cost_comp 1 [(0%nat, 1)] [1]), (cost_comp 1 [(1%nat, 1)] [1]).
  assert (F : Forall comp_ok [cost_comp 1 [(0%nat, 1)] [1]; cost_comp 1 [(1%nat, 1)] [1]]) by (repeat constructor).
  destruct (G _ F) as [E1 E2]; [repeat constructor|]. do 5 (split; [reflexivity || exact F|]). split; [exact E1|].
  eexists. split; [exact E2|]. cbn. rewrite ?srow_dot_R. unfold srow_dot, vsum, rsum, Rsum. cbn. split; lra.
Qed.
Print Assumptions C26_refuted.

(** What holds: without costs the value is zero, with a single cost it is that cost.  A composite that
    adds its components up, which the problem does not use, would give the sum. *)
Theorem C26_partial (p : comp R) : comp_ok p -> cm_rows p = 1%nat ->
  evaluate_cost (@nil (comp R)) = Val 0 /\ evaluate_cost_gradient (@nil (comp R)) = Val [] /\
  exists v r, cm_vals p = [v] /\ cm_jac p = [r] /\ evaluate_cost [p] = Val v /\ evaluate_cost_gradient [p] = Val r.
Proof.
  intros H H1. split; [reflexivity|]. split; [reflexivity|]. destruct (proj1 C26_refuted [p]) as [E1 E2]; [constructor; auto|constructor; auto|].
  destruct H as (Lv & _ & Lj & _). rewrite H1 in *. cbn in E1, E2.
  destruct (cm_vals p) as [|v [|v' vs']], (cm_jac p) as [|r [|r' rs']]; try discriminate. exists v, r. cbn in E1, E2. auto.
Qed.
Print Assumptions C26_partial.

Theorem C26_sum_mode (ps : list (comp R)) (vs : list R) : map cm_vals ps = map (fun v => [v]) vs -> Forall (fun p => cm_rows p = 1%nat) ps ->
  ps <> [] -> exists rest, ct_values (ct_build SumToScalar ps) = Val (Rsum vs :: rest).
Proof.
  intros Hv Hr Hn. unfold ct_values. rewrite ct_build_spec. cbn [ct_mode ct_comps ct_rows]. rnum.
  assert (G : forall ps vs a rest, map cm_vals ps = map (fun v : R => [v]) vs -> Forall (fun p => cm_rows p = 1%nat) ps ->
    stack SumToScalar cm_vals ps 0 (a :: rest) = Val ((a + Rsum vs) :: rest)).
  { clear. induction ps as [|p ps IH]; intros [|v vs] a rest Hv Hr; try discriminate; cbn [stack].
    - unfold Rsum. cbn. rewrite Rplus_0_r. reflexivity.
    - injection Hv as Ep Hv. inversion_clear Hr. rewrite H, Ep. cbn [add_block length plus Nat.leb Nat.eqb andb rbind firstn skipn combine map fst snd app].
      rewrite IH with (vs := vs) by assumption. rnum. f_equal. f_equal. unfold Rsum. cbn. fold (Rsum vs). ring. }
  destruct ps as [|p ps]; [contradiction|]. inversion Hr as [|? ? Hp Hr']; subst.
  change (list_sum (map cm_rows (p :: ps))) with (cm_rows p + list_sum (map cm_rows ps))%nat. rewrite Hp. cbn [plus repeat].
  eexists. rewrite (G (p :: ps) vs) by assumption. rewrite Rplus_0_l. reflexivity.
Qed.
Print Assumptions C26_sum_mode.

Example C26_ex : comp_ok (cost_comp 7 [(1%nat, 3)] [1]) /\ evaluate_cost [cost_comp 7 [(1%nat, 3)] [1]] = Val 7.
Proof.
  assert (K : comp_ok (cost_comp 7 [(1%nat, 3)] [1])) by (repeat split).
  split; [exact K|]. destruct (C26_partial _ K eq_refl) as (_ & _ & v & r & Ev & _ & E & _). cbn in Ev. injection Ev as <-. exact E.
Qed.

(** ** C28 *)
Definition sized_as {A B C} (w : list A) (l : list B) (l' : list C) : Prop := length l = length w /\ length l' = length w.

Lemma squared_value w vals (bs : list (bnd R)) : sized_as w vals bs ->
  squared_cost w vals bs = Val (rsum (fun p => Rabs (fst p) * bound_error (fst (snd p)) (snd (snd p)) ^ 2) (combine w (combine bs vals))).
Proof.
  intros [H1 H2]. unfold squared_cost, bounds_errors. rewrite sized_val by lia. cbn [rbind].
  rewrite map_length, combine_length, (proj2 (Nat.eqb_eq _ _)) by lia. f_equal. rewrite vsum_R. unfold rsum. f_equal.
  rewrite combine_map_r, map_map. apply map_ext. intros [a [b x]]. cbn. rnum. ring.
Qed.
Lemma absolute_value w vals (bs : list (bnd R)) : sized_as w vals bs ->
  absolute_cost w vals bs = Val (rsum (fun p => Rabs (fst p) * Rabs (bound_error (fst (snd p)) (snd (snd p)))) (combine w (combine bs vals))).
Proof.
  intros [H1 H2]. unfold absolute_cost, bounds_violations. rewrite sized_val by lia. cbn [rbind].
  rewrite map_length, combine_length, (proj2 (Nat.eqb_eq _ _)) by lia. f_equal. unfold vdot. rewrite vsum_R. unfold rsum. f_equal.
  rewrite combine_map_l, combine_map_r, !map_map. apply map_ext. intros [a [b x]]. cbn. rewrite bound_viol_abs. reflexivity.
Qed.

Lemma weighted_zero w vals (bs : list (bnd R)) (phi : bnd R -> R -> R) : sized_as w vals bs -> Forall (fun a => a <> 0) w ->
  (forall b x, 0 <= phi b x) -> (forall b x, In b bs -> phi b x = 0 <-> inside b x) ->
  0 <= rsum (fun p => Rabs (fst p) * phi (fst (snd p)) (snd (snd p))) (combine w (combine bs vals)) /\
  (rsum (fun p => Rabs (fst p) * phi (fst (snd p)) (snd (snd p))) (combine w (combine bs vals)) = 0 <-> Forall2 inside bs vals).
Proof.
  intros [H1 H2] Hw Hphi Hz. assert (N : forall p, In p (combine w (combine bs vals)) -> 0 <= Rabs (fst p) * phi (fst (snd p)) (snd (snd p))).
  { intros p _. apply Rmult_le_pos; [apply Rabs_pos|apply Hphi]. }
  split; [apply rsum_nonneg, N|]. revert vals bs H1 H2 Hz N. induction Hw as [|a w Ha Hw IH]; intros [|x vals] [|b bs] H1 H2 Hz N; try discriminate.
  - unfold rsum. cbn. split; [constructor|reflexivity].
  - cbn [combine]. rewrite rsum_cons. cbn [fst snd].
    assert (A : 0 <= Rabs a * phi b x) by (apply Rmult_le_pos; [apply Rabs_pos|apply Hphi]).
    assert (B : 0 <= rsum (fun p => Rabs (fst p) * phi (fst (snd p)) (snd (snd p))) (combine w (combine bs vals))).
    { apply rsum_nonneg. intros p Hp. apply N. right. exact Hp. }
    assert (IH' := IH vals bs ltac:(cbn in *; lia) ltac:(cbn in *; lia) (fun b1 x1 Hin => Hz b1 x1 (or_intror Hin)) (fun p Hp => N p (or_intror Hp))).
    specialize (Hz b x (or_introl eq_refl)). split.
    + intros E. constructor.
      * apply Hz. assert (E' : Rabs a * phi b x = 0) by lra. apply Rmult_integral in E' as [E'|E']; [|exact E']. apply Rabs_no_R0 in Ha. contradiction.
      * apply IH'. lra.
    + intros F. inversion_clear F. apply Hz in H. apply IH' in H0. rewrite H, H0. ring.
Qed.

Theorem C28_value (w vals : list R) (bs : list (bnd R)) : Forall proper bs -> Forall (fun a => a <> 0) w -> sized_as w vals bs ->
  exists s a, squared_cost w vals bs = Val s /\ absolute_cost w vals bs = Val a /\
    s = rsum (fun p => Rabs (fst p) * bound_error (fst (snd p)) (snd (snd p)) ^ 2) (combine w (combine bs vals)) /\
    a = rsum (fun p => Rabs (fst p) * Rabs (bound_error (fst (snd p)) (snd (snd p)))) (combine w (combine bs vals)) /\
    0 <= s /\ 0 <= a /\ (s = 0 <-> Forall2 inside bs vals) /\ (a = 0 <-> Forall2 inside bs vals).
Proof.
  intros Hp Hw Hs. rewrite (squared_value _ _ _ Hs), (absolute_value _ _ _ Hs). do 2 eexists. do 4 (split; [reflexivity|]).
  assert (P : forall b, In b bs -> proper b) by (intros b Hb; eapply Forall_forall; eauto).
  destruct (weighted_zero w vals bs (fun b x => bound_error b x ^ 2) Hs Hw) as [A1 A2].
  { intros b x. nra. }
  { intros b x Hb. rewrite <- (error_zero b x (P b Hb)). split; intros E; [|rewrite E; ring]. nra. }
  destruct (weighted_zero w vals bs (fun b x => Rabs (bound_error b x)) Hs Hw) as [B1 B2].
  { intros b x. apply Rabs_pos. }
  { intros b x Hb. rewrite <- (error_zero b x (P b Hb)). split; intros E; [|rewrite E; apply Rabs_R0].
    destruct (Req_dec (bound_error b x) 0) as [E'|E']; [exact E'|]. apply Rabs_no_R0 in E'. contradiction. }
  auto.
Qed.
Print Assumptions C28_value.

Lemma weighted_derivative w (gs : list (R -> R)) (bs : list (bnd R)) (phi dphi : bnd R -> R -> R) (ds : list R) :
  length gs = length w -> length bs = length w -> length ds = length w ->
  Forall2 (fun g d => derivable_pt_lim g 0 d) gs ds ->
  Forall2 (fun b (g : R -> R) => derivable_pt_lim (phi b) (g 0) (dphi b (g 0))) bs gs ->
  derivable_pt_lim (fun t => rsum (fun p => Rabs (fst p) * phi (fst (snd p)) (snd (snd p))) (combine w (combine bs (map (fun g => g t) gs)))) 0
    (rsum (fun p => fst p * snd p) (combine (map (fun p => Rabs (fst p) * dphi (fst (snd p)) (snd (snd p))) (combine w (combine bs (map (fun g => g 0) gs)))) ds)).
Proof.
  revert gs bs ds. induction w as [|a w IH]; intros [|g gs] [|b bs] [|d ds] H1 H2 H3 F1 F2; try discriminate.
  - unfold rsum. cbn. apply derivable_pt_lim_const.
  - inversion F1; subst. inversion F2; subst. cbn [map combine]. rewrite rsum_cons. cbn [fst snd].
    apply derivable_pt_lim_ext with (f := fun t => Rabs a * phi b (g t) +
      rsum (fun p => Rabs (fst p) * phi (fst (snd p)) (snd (snd p))) (combine w (combine bs (map (fun g => g t) gs))));
      [intros t; rewrite rsum_cons; reflexivity|].
    apply (derivable_pt_lim_plus (fun t => Rabs a * phi b (g t))).
    + rewrite Rmult_assoc. apply (derivable_pt_lim_scal (fun t => phi b (g t))). apply (derivable_pt_lim_comp g (phi b)); assumption.
    + apply IH; auto; cbn in *; lia.
Qed.

Lemma error_sq_derivable b y : proper b -> derivable_pt_lim (fun x => bound_error b x ^ 2) y (2 * bound_error b y).
Proof.
  intros Hp. assert (D : derivable_pt_lim (fun h => bound_error b (y + h) ^ 2) 0 (2 * bound_error b y)).
  { apply derivable_from_quadratic with 1; [lra|]. intros h. rewrite Rplus_0_r, Rmult_1_l. apply error_sq_quadratic, Hp. }
  intros eps He. destruct (D eps He) as [delta H]. exists delta. intros h Hh Hb. specialize (H h Hh Hb). rewrite Rplus_0_l, Rplus_0_r in H. exact H.
Qed.

Lemma grad_dot n ks (j : list (srow R)) d : length d = n -> length ks = length j -> Forall (Forall (fun p => (fst p < n)%nat)) j ->
  vdot (col_sums n (scale_rows ks j)) d = rsum (fun p => fst p * snd p) (combine ks (jac_mul j d)).
Proof.
  intros Hd Hk Hj. rewrite col_sums_dot by (auto; apply scale_rows_in, Hj).
  unfold rsum at 1. change (map (fun r => srow_dot r d) (scale_rows ks j)) with (map (fun r => srow_dot r d) (scale_rows ks j)).
  rewrite scale_rows_dot by exact Hk. unfold jac_mul, rsum. rewrite combine_map_r, map_map. reflexivity.
Qed.

(** The squared cost's gradient is the derivative of its value, along every direction [d]: if the
    constraint values along the line are [gs] and their derivatives are given by the Jacobian [j]. *)
Theorem C28_squared_gradient (n : nat) (w : list R) (gs : list (R -> R)) (bs : list (bnd R)) (j : list (srow R)) (d : list R) :
  Forall proper bs -> length gs = length w -> length bs = length w -> length j = length w -> length d = n ->
  Forall (Forall (fun p => (fst p < n)%nat)) j ->
  Forall2 (fun g r => derivable_pt_lim g 0 (srow_dot r d)) gs j ->
  exists (c : R -> R) grad, (forall t, squared_cost w (map (fun g => g t) gs) bs = Val (c t)) /\
    squared_gradient n w (map (fun g => g 0) gs) bs j = Val grad /\ length grad = n /\
    derivable_pt_lim c 0 (vdot grad d).
Proof.
  intros Hp L1 L2 L3 L4 Hj HF. eexists. eexists. split; [intros t; apply squared_value; split; rewrite ?map_length; lia|]. split.
  { unfold squared_gradient, bounds_errors. rewrite sized_val by (rewrite map_length; lia). cbn [rbind].
    rewrite map_length, combine_length, map_length, !(proj2 (Nat.eqb_eq _ _)) by lia. reflexivity. }
  split; [unfold col_sums; rewrite map_length; apply seq_length|].
  rewrite grad_dot; auto; [|rewrite map_length, !combine_length, map_length, combine_length, map_length; lia].
  assert (E : map (fun p : R * R => (nofZ 2 * nabs (fst p) * snd p)%num) (combine w (map (fun p => bound_error (fst p) (snd p)) (combine bs (map (fun g => g 0) gs))))
    = map (fun p => Rabs (fst p) * (2 * bound_error (fst (snd p)) (snd (snd p)))) (combine w (combine bs (map (fun g => g 0) gs)))).
  { rewrite combine_map_r, map_map. apply map_ext. intros [a [b x]]. cbn [fst snd]. rnum. change (IZR 2) with 2. ring. }
  rewrite E. apply (weighted_derivative w gs bs (fun b x => bound_error b x ^ 2) (fun b x => 2 * bound_error b x)); auto.
  - unfold jac_mul. rewrite map_length. exact L3.
  - unfold jac_mul. clear -HF. induction HF; cbn; constructor; assumption.
  - assert (L : length gs = length bs) by lia. clear -Hp L. revert gs L. induction Hp; intros [|g gs] L; try discriminate; constructor; [apply error_sq_derivable; assumption|apply IHHp; cbn in L; lia].
Qed.
Print Assumptions C28_squared_gradient.

(** The absolute cost: away from the kinks and from errors below 1e-12, its gradient is the derivative. *)
Definition smooth_at (b : bnd R) (x : R) : Prop :=
  1 / 10 ^ 12 <= Rabs (bound_error b x) \/
  ((forall l, b_lo b = Some l -> l < x) /\ (forall u, b_hi b = Some u -> x < u)).
Lemma abs_error_derivable b y : proper b -> smooth_at b y ->
  derivable_pt_lim (fun x => Rabs (bound_error b x)) y (sign_coeff 1 (bound_error b y)).
Proof.
  intros Hp Hs.
  assert (Sm : forall e : R, @ndec R _ 1 (-12) <= Rabs e -> (0 < e -> sign_coeff 1 e = 1) /\ (e < 0 -> sign_coeff 1 e = -1)).
  { intros e He. unfold sign_coeff. rnum. rcase; [lra|]. split; intros Hz; rcase; lra. }
  assert (D12 : @ndec R _ 1 (-12) = 1 / 10 ^ 12) by reflexivity.
  rewrite D12 in Sm.
  destruct (bound_cases b y Hp) as [(l & El & Hl & Ee & _)|[(u & Eu & Hu & Ee & _)|(Hi & Ee & _)]].
  - assert (S0 : sign_coeff 1 (bound_error b y) = -1).
    { destruct Hs as [Hs|[Hs _]]; [|specialize (Hs l El); lra]. apply Sm; [exact Hs|]. rewrite Ee. lra. }
    rewrite S0. apply derivable_pt_lim_locally_ext with (f := fun x => - x + l) (a := y - 1) (b := l); [lra| |].
    + intros z Hz. destruct (bound_cases b z Hp) as [(l' & El' & Hl' & E & _)|[(u & Eu & Hu & _)|([H _] & _)]].
      * rewrite E. rewrite El in El'. injection El' as <-. rewrite Rabs_left by lra. lra.
      * pose proof (Hp l u El Eu). lra.
      * specialize (H l El). lra.
    + replace (-1) with (-1 + 0) by ring. apply (derivable_pt_lim_plus (fun x => - x) (fun _ => l)); [|apply derivable_pt_lim_const].
      apply (derivable_pt_lim_opp (fun x => x)). apply derivable_pt_lim_id.
  - assert (S0 : sign_coeff 1 (bound_error b y) = 1).
    { destruct Hs as [Hs|[_ Hs]]; [|specialize (Hs u Eu); lra]. apply Sm; [exact Hs|]. rewrite Ee. lra. }
    rewrite S0. apply derivable_pt_lim_locally_ext with (f := fun x => x - u) (a := u) (b := y + 1); [lra| |].
    + intros z Hz. destruct (bound_cases b z Hp) as [(l & El & Hl & _)|[(u' & Eu' & Hu' & E & _)|([_ H] & _)]].
      * pose proof (Hp l u El Eu). lra.
      * rewrite E. rewrite Eu in Eu'. injection Eu' as <-. rewrite Rabs_right by lra. reflexivity.
      * specialize (H u Eu). lra.
    + replace 1 with (1 - 0) by ring. apply (derivable_pt_lim_minus (fun x => x) (fun _ => u)); [apply derivable_pt_lim_id|apply derivable_pt_lim_const].
  - rewrite Ee. destruct Hs as [Hs|[H1 H2]]; [rewrite Ee, Rabs_R0 in Hs; lra|].
    assert (S0 : sign_coeff 1 (0 : R) = 0).
    { unfold sign_coeff. rewrite D12. rnum. rewrite Rabs_R0. rcase; [reflexivity|lra]. }
    rewrite S0. set (a := match b_lo b with Some l => l | None => y - 1 end). set (c := match b_hi b with Some u => u | None => y + 1 end).
    apply derivable_pt_lim_locally_ext with (f := fun _ => 0) (a := a) (b := c).
    + unfold a, c. split; [destruct (b_lo b) eqn:E; [apply H1; reflexivity|lra]|destruct (b_hi b) eqn:E; [apply H2; reflexivity|lra]].
    + intros z Hz. replace (bound_error b z) with 0; [rewrite Rabs_R0; reflexivity|]. symmetry. apply error_zero; [exact Hp|].
      unfold a, c in Hz. split; [intros l E; rewrite E in Hz; lra|intros u E; rewrite E in Hz; lra].
    + apply derivable_pt_lim_const.
Qed.
Lemma sign_coeff_scale (w e : R) : sign_coeff w e = w * sign_coeff 1 e.
Proof. unfold sign_coeff. rnum. destruct Rltb; [ring|]. destruct Rltb; ring. Qed.

Theorem C28_absolute_gradient_partial (n : nat) (w : list R) (gs : list (R -> R)) (bs : list (bnd R)) (j : list (srow R)) (d : list R) :
  Forall proper bs -> length gs = length w -> length bs = length w -> length j = length w -> length d = n ->
  Forall (Forall (fun p => (fst p < n)%nat)) j ->
  Forall2 (fun g r => derivable_pt_lim g 0 (srow_dot r d)) gs j ->
  Forall2 (fun b (g : R -> R) => smooth_at b (g 0)) bs gs ->
  exists (c : R -> R) grad, (forall t, absolute_cost w (map (fun g => g t) gs) bs = Val (c t)) /\
    absolute_gradient n w (map (fun g => g 0) gs) bs j = Val grad /\ length grad = n /\
    derivable_pt_lim c 0 (vdot grad d).
Proof.
  intros Hp L1 L2 L3 L4 Hj HF HS. eexists. eexists. split; [intros t; apply absolute_value; split; rewrite ?map_length; lia|]. split.
  { unfold absolute_gradient, bounds_errors. rewrite sized_val by (rewrite map_length; lia). cbn [rbind].
    rewrite map_length, combine_length, map_length, !(proj2 (Nat.eqb_eq _ _)) by lia. reflexivity. }
  split; [unfold col_sums; rewrite map_length; apply seq_length|].
  rewrite grad_dot; auto; [|rewrite map_length, !combine_length, map_length, combine_length, map_length; lia].
  assert (E : map (fun p : R * R => sign_coeff (nabs (fst p)) (snd p)) (combine w (map (fun p => bound_error (fst p) (snd p)) (combine bs (map (fun g => g 0) gs))))
    = map (fun p => Rabs (fst p) * sign_coeff 1 (bound_error (fst (snd p)) (snd (snd p)))) (combine w (combine bs (map (fun g => g 0) gs)))).
  { rewrite combine_map_r, map_map. apply map_ext. intros [a [b x]]. cbn [fst snd]. rewrite sign_coeff_scale. reflexivity. }
  rewrite E. apply (weighted_derivative w gs bs (fun b x => Rabs (bound_error b x)) (fun b x => sign_coeff 1 (bound_error b x))); auto.
  - unfold jac_mul. rewrite map_length. exact L3.
  - unfold jac_mul. clear -HF. induction HF; cbn; constructor; assumption.
  - clear -Hp HS. induction HS; constructor; inversion_clear Hp; auto. apply abs_error_derivable; assumption.
Qed.
Print Assumptions C28_absolute_gradient_partial.

(** Errors smaller than 1e-12 get a zero gradient although the cost has slope one there. *)
Theorem C28_absolute_gradient_refuted : exists (w : list R) (bs : list (bnd R)) (y : R) (j : list (srow R)) (c : R -> R),
  Forall proper bs /\ (forall x, absolute_cost w [x] bs = Val (c x)) /\ j = [[(0%nat, 1)]] /\
  absolute_gradient 1 w [y] bs j = Val [0] /\ derivable_pt_lim c y 1.
Proof.
  exists [1], [below 0], (1 / 10 ^ 13), [[(0%nat, 1)]], (fun x => Rabs 1 * Rabs (bound_error (below 0) x) + 0).
  assert (P : proper (below 0)) by (intros l u; cbn; discriminate).
  assert (E13 : bound_error (below 0) (1 / 10 ^ 13) = 1 / 10 ^ 13).
  { unfold bound_error, lt_lo, gt_hi, hi_or. cbn [b_lo b_hi below]. rnum. destruct (Rltb_spec 0 (1 / 10 ^ 13)); lra. }
  split; [constructor; [exact P|constructor]|]. split; [|split; [reflexivity|split]].
  - intros x. rewrite absolute_value by (split; reflexivity). unfold rsum, Rsum. cbn [combine map fst snd fold_right]. reflexivity.
  - unfold absolute_gradient, bounds_errors. rewrite sized_val by reflexivity. cbn [combine map fst snd rbind length Nat.eqb andb].
    rewrite E13. unfold sign_coeff.
    assert (D12 : @ndec R _ 1 (-12) = 1 / 10 ^ 12) by reflexivity.
    rewrite D12. rnum. rewrite (Rabs_right (1 / 10 ^ 13)) by lra. rcase; [|lra].
    unfold col_sums, scale_rows. cbn. f_equal. f_equal. ring.
  - rewrite Rabs_R1. replace 1 with (1 * 1 + 0) at 2 by ring.
    apply (derivable_pt_lim_plus (fun x => 1 * Rabs (bound_error (below 0) x)) (fun _ => 0)); [|apply derivable_pt_lim_const].
    apply (derivable_pt_lim_scal (fun x => Rabs (bound_error (below 0) x))).
    apply derivable_pt_lim_locally_ext with (f := fun x => x) (a := 0) (b := 1); [lra| |apply derivable_pt_lim_id].
    intros z Hz. unfold bound_error, lt_lo, gt_hi, hi_or. cbn [b_lo b_hi below]. rnum. destruct (Rltb_spec 0 z); [|lra].
    rewrite Rminus_0_r, Rabs_right by lra. reflexivity.
Qed.
Print Assumptions C28_absolute_gradient_refuted.

Example C28_ex : exists s, squared_cost [2; -1] [3; 5] [box 0 1; above 6] = Val s /\ s = 9 /\
  smooth_at (box 0 1) 3 /\ smooth_at (above 6) 7.
Proof.
  rewrite squared_value by (split; reflexivity). eexists. split; [reflexivity|]. split; [|split].
  - unfold rsum, Rsum. cbn [combine map fst snd fold_right]. unfold bound_error, lt_lo, gt_hi, lo_or, hi_or. cbn [b_lo b_hi box above]. rnum.
    repeat (rcase; try lra). rewrite Rabs_right, Rabs_left by lra. lra.
  - left. unfold bound_error, lt_lo, gt_hi, lo_or, hi_or. cbn [b_lo b_hi box above]. rnum.
    repeat (rcase; try lra). rewrite Rabs_right; lra.
  - right. split; intros ?; cbn; [intros [= <-]; lra|discriminate].
Qed.

(** ** C82: numerical Jacobians *)
Lemma set_at_length (x : list R) i v : length (set_at x i v) = length x.
Proof. revert i; induction x; intros [|i]; cbn; auto. Qed.
Lemma set_at_nth (x : list R) i v k : (i < length x)%nat -> nth k (set_at x i v) 0 = if (k =? i)%nat then v else nth k x 0.
Proof. revert i k; induction x as [|a x IH]; intros [|i] [|k] H; cbn in *; try lia; auto. apply IH. lia. Qed.
Lemma set_at_back (x : list R) i v : set_at (set_at x i v) i (nth i x 0) = x.
Proof. revert i; induction x as [|a x IH]; intros [|i]; cbn; f_equal; auto. Qed.

(** Column i of the numerical Jacobian is the forward difference with only variable i disturbed, for
    any function; the variables are left as they were. *)
Theorem C82_columns (m nb : nat) (g : list R -> list R) (x : list R) (eps : R) : m <> 0%nat -> x <> [] -> nb <> 0%nat ->
  exists cols, numeric_gradient m nb g x eps = (cols, x) /\ length cols = length x /\
    forall i, (i < length x)%nat -> exists y, (length y = length x /\ forall k, nth k y 0 = nth k x 0 + if (k =? i)%nat then eps else 0) /\
      nth i cols [] = map (fun p => (snd p - fst p) / eps) (combine (g x) (g y)).
Proof.
  intros Hm Hx Hn. unfold numeric_gradient. rewrite (proj2 (Nat.eqb_neq m 0) Hm), (proj2 (Nat.eqb_neq nb 0) Hn).
  destruct (Nat.eqb_spec (length x) 0) as [E|E]; [destruct x; [contradiction|discriminate]|]. cbn [orb].
  assert (G : forall is, grad_loop g x (g x) eps is x =
    map (fun i => map (fun p => (snd p - fst p) / eps) (combine (g x) (g (set_at x i (nth i x 0 + eps))))) is).
  { induction is as [|i is IH]; [reflexivity|]. cbn [grad_loop map]. rnum. rewrite set_at_back, IH. reflexivity. }
  eexists. split; [reflexivity|]. rewrite G, map_length, seq_length. split; [reflexivity|].
  intros i Hi. exists (set_at x i (nth i x 0 + eps)). split.
  - split; [apply set_at_length|]. intros k. rewrite set_at_nth by exact Hi. destruct (Nat.eqb_spec k i); [subst; reflexivity|ring].
  - rewrite nth_map_seq by exact Hi. reflexivity.
Qed.
Print Assumptions C82_columns.

Lemma srow_dot_disturbed (r : srow R) x y i eps : (forall k, nth k y 0 = nth k x 0 + if (k =? i)%nat then eps else 0) ->
  srow_dot r y - srow_dot r x = assoc_sum i r * eps.
Proof.
  intros H. rewrite !srow_dot_R. unfold assoc_sum. rewrite <- rsum_scal_r. induction r as [|[c v] r IH]; [unfold rsum; cbn; ring|].
  rewrite !rsum_cons. cbn [fst snd] in *. rewrite H. destruct (Nat.eqb_spec c i); lra.
Qed.

(** For an affine constraint the numerical Jacobian is exact, whatever the step. *)
Theorem C82_affine (nb : nat) (j : list (srow R)) (c x : list R) (eps : R) : j <> [] -> x <> [] -> nb <> 0%nat -> eps <> 0 -> length c = length j ->
  exists cols, fst (numeric_gradient (length j) nb (fun x => vadd (jac_mul j x) c) x eps) = cols /\
    forall i k, (i < length x)%nat -> (k < length j)%nat -> nth k (nth i cols []) 0 = assoc_sum i (nth k j []).
Proof.
  intros Hj Hx Hn He Hc. destruct (C82_columns (length j) nb (fun x => vadd (jac_mul j x) c) x eps) as (cols & -> & _ & H); auto.
  { destruct j; [contradiction|discriminate]. }
  exists cols. split; [reflexivity|]. intros i k Hi Hk. destruct (H i Hi) as (y & [_ Hy] & ->).
  assert (L : forall x, length (vadd (jac_mul j x) c) = length j) by (intros z; unfold vadd, jac_mul; rewrite map_length, combine_length, map_length; lia).
  rewrite (map_combine_nth _ _ _ k 0 0 0) by (rewrite ?L; auto). cbn [fst snd].
  assert (N : forall x, nth k (vadd (jac_mul j x) c) 0 = srow_dot (nth k j []) x + nth k c 0).
  { intros z. unfold vadd. rewrite (map_combine_nth _ _ _ k 0 0 0) by (unfold jac_mul; rewrite ?map_length; auto). cbn [fst snd]. rnum. f_equal.
    apply (nth_map_d (fun r => srow_dot r z)). exact Hk. }
  rewrite !N. replace (srow_dot (nth k j []) y + nth k c 0 - (srow_dot (nth k j []) x + nth k c 0)) with (srow_dot (nth k j []) y - srow_dot (nth k j []) x) by ring.
  rewrite (srow_dot_disturbed _ x y i eps Hy). field. exact He.
Qed.
Print Assumptions C82_affine.

Example C82_ex : exists c0 c1, numeric_gradient 1 1 (fun x => [3 * nth 0 x 0 - nth 1 x 0]) [1; 2] (1/2) = ([[c0]; [c1]], [1; 2]) /\ c0 = 3 /\ c1 = -1.
Proof. do 2 eexists. split; [cbn; reflexivity|]. rnum. split; lra. Qed.

(** ** C83: interpolation *)
Lemma interp_nth n (running delta : list R) i : (i < n)%nat -> length running = length delta ->
  nth i (interp_loop n running delta) [] = map (fun p => fst p + INR i * snd p) (combine running delta).
Proof.
  revert running i; induction n as [|n IH]; intros running i Hi Hl; [lia|]. cbn [interp_loop].
  destruct i as [|i]; cbn [nth].
  - clear -Hl. revert delta Hl. induction running as [|a r IH]; intros [|b d] H; try discriminate; [reflexivity|]. cbn [combine map fst snd]. f_equal; [cbn; ring|apply IH; cbn in H; lia].
  - rewrite IH; [|lia|unfold vadd; rewrite map_length, combine_length; lia]. unfold vadd. clear -Hl.
    revert delta Hl. induction running as [|a r IH]; intros [|b d] H; try discriminate; [reflexivity|].
    cbn [combine map fst snd]. f_equal; [rnum; rewrite S_INR; ring|apply IH; cbn in H; lia].
Qed.
Lemma interp_length n (running delta : list R) : length (interp_loop n running delta) = n.
Proof. revert running; induction n as [|n IH]; intros running; [reflexivity|]. cbn [interp_loop length]. rewrite IH. reflexivity. Qed.
Theorem C83_interpolate (start stop : list R) (steps : nat) : length start = length stop -> (2 <= steps)%nat ->
  exists pts, interpolate start stop steps = Val pts /\ length pts = steps /\
    nth 0 pts [] = start /\ nth (steps - 1) pts [] = stop /\
    forall i k, (i < steps)%nat -> (k < length start)%nat ->
      nth k (nth i pts []) 0 = nth k start 0 + (nth k stop 0 - nth k start 0) * (INR i / INR (steps - 1)).
Proof.
  intros Hl Hs. unfold interpolate. rewrite (proj2 (Nat.eqb_eq _ _) Hl), (proj2 (Nat.leb_le _ _) Hs). cbn [andb]. eexists. split; [reflexivity|].
  split; [apply interp_length|].
  set (delta := map _ (combine start stop)). assert (Ld : length delta = length start) by (unfold delta; rewrite map_length, combine_length; lia).
  assert (N : forall i k, (i < steps)%nat -> (k < length start)%nat ->
      nth k (nth i (interp_loop steps start delta) []) 0 = nth k start 0 + (nth k stop 0 - nth k start 0) * (INR i / INR (steps - 1))).
  { intros i k Hi Hk. rewrite interp_nth by (auto; lia). rewrite (map_combine_nth _ _ _ k 0 0 0) by (auto; lia). cbn [fst snd].
    unfold delta. rewrite (map_combine_nth _ start stop k 0 0 0) by (auto; lia). cbn [fst snd]. rnum. rewrite <- INR_IZR_INZ. unfold Rdiv. ring. }
  assert (Lp : forall i, (i < steps)%nat -> length (nth i (interp_loop steps start delta) []) = length start).
  { intros i Hi. rewrite interp_nth by (auto; lia). rewrite map_length, combine_length. lia. }
  split; [|split; [|exact N]].
  - apply nth_ext with 0 0; [apply Lp; lia|]. intros k Hk. rewrite Lp in Hk by lia. rewrite N by lia. cbn [INR]. unfold Rdiv. ring.
  - apply nth_ext with 0 0; [rewrite Lp; lia|]. intros k Hk. rewrite Lp in Hk by lia. rewrite N by lia.
    assert (0 < INR (steps - 1)) by (apply lt_0_INR; lia). field. lra.
Qed.
Print Assumptions C83_interpolate.
Example C83_ex : exists pts, interpolate [0; 2] [1; 4] 3 = Val pts /\ nth 2 pts [] = [1; 4] /\ nth 0 (nth 1 pts []) 0 = 1/2.
Proof.
  destruct (C83_interpolate [0; 2] [1; 4] 3 eq_refl) as (pts & E & _ & _ & E2 & N); [lia|].
  exists pts. split; [exact E|]. split; [exact E2|]. rewrite N by (cbn; lia). cbn. lra.
Qed.
