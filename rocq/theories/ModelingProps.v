(** * C13, C35-C39, C72, C73: the modelling layer of trajopt_sco *)
From Coq Require Import List ZArith QArith Bool Arith Lia Reals Lra.
From Verif Require Import Num NumFacts RSums Common ScoExprModel ScoExprProofs ModelingModel ModelingSpec ModelingProofs.
Import ListNotations.
Local Open Scope R_scope.

(** ** C13 trust boxes *)
Definition good_box (lo hi x box : R) (b : R * R) : Prop :=
  let proj := Rmin (Rmax x lo) hi in
  fst b <= snd b /\ lo <= fst b /\ snd b <= hi /\ fst b <= proj <= snd b /\
  (lo <= x <= hi -> x - box <= fst b /\ snd b <= x + box) /\
  (* not smaller than needed: every point of [lo,hi] within box of the projection is allowed *)
  (forall p, lo <= p <= hi -> Rabs (p - proj) <= box -> fst b <= p <= snd b).

Theorem C13_sco_trust_box :
  forall (lb ub x : list R) (box : R), length lb = length x -> length ub = length x -> 0 <= box ->
    (forall i, (i < length x)%nat -> nth i lb 0 <= nth i ub 0) ->
    length (trust_boxes lb ub x box) = length x /\
    forall i, (i < length x)%nat ->
      good_box (nth i lb 0) (nth i ub 0) (nth i x 0) box (nth i (trust_boxes lb ub x box) (0, 0)).
Proof.
  intros lb ub x box Hl Hu Hb Hle.
  assert (Hlen : length (combine (combine lb ub) x) = length x) by (rewrite !combine_length; lia).
  split; [unfold trust_boxes; rewrite map_length; exact Hlen|]. intros i Hi. specialize (Hle i Hi).
  unfold trust_boxes. rewrite (nth_indep _ _ (trust_box1 (fst (fst ((0, 0), 0))) (snd (fst ((0, 0), 0))) (snd ((0, 0), 0)) box)) by (rewrite map_length; lia).
  rewrite (map_nth (fun t => trust_box1 (fst (fst t)) (snd (fst t)) (snd t) box)).
  rewrite (combine_nth (combine lb ub) x) by (rewrite combine_length; lia). rewrite combine_nth by lia. cbn [fst snd].
  generalize dependent (nth i lb 0). generalize (nth i ub 0), (nth i x 0). intros hi xi lo Hle.
  unfold good_box, trust_box1. rewrite nmax_R, nmin_R. cbn [fst snd].
  assert (Hc : nclamp xi lo hi = Rmin (Rmax xi lo) hi).
  { unfold nclamp. rnum. repeat rcase; unfold Rmin, Rmax; repeat destruct Rle_dec; lra. }
  rewrite Hc. rnum. unfold Rmin, Rmax, Rabs. repeat destruct Rle_dec; repeat split; intros; try lra;
    repeat destruct Rle_dec; try destruct Rcase_abs; try lra.
Qed.
Print Assumptions C13_sco_trust_box.
Example C13_ex : trust_boxes [0; 0; -1]%Q [10; 10; 1]%Q [5; 12; 0]%Q 2%Q = [(3, 7); (8, 10); (-1, 1)]%Q.
Proof. vm_compute. reflexivity. Qed.

(** both trajopt_sqp QP problems; box sizes per variable *)
Theorem C13_sqp_trust_box :
  forall (lb ub x box : list R), length lb = length x -> length ub = length x -> length box = length x ->
    (forall i, (i < length x)%nat -> nth i lb 0 <= nth i ub 0 /\ 0 <= nth i box 0) ->
    trust_boxes_ifopt lb ub x box = trust_boxes_sqp lb ub x box /\
    forall i, (i < length x)%nat ->
      good_box (nth i lb 0) (nth i ub 0) (nth i x 0) (nth i box 0) (nth i (trust_boxes_sqp lb ub x box) (0, 0)).
Proof.
  intros lb ub x box Hl Hu Hbx Hle.
  assert (Hlen : length (combine (combine (combine lb ub) x) box) = length x) by (rewrite !combine_length; lia).
  assert (Hc : forall xi lo hi : R, lo <= hi -> nclamp xi lo hi = Rmin (Rmax xi lo) hi).
  { intros. unfold nclamp. rnum. repeat rcase; unfold Rmin, Rmax; repeat destruct Rle_dec; lra. }
  split.
  - unfold trust_boxes_ifopt, trust_boxes_sqp. apply map_ext_in. intros [[[lo hi] xi] bi] Hin.
    apply (In_nth _ _ (0, 0, 0, 0)) in Hin as (i & Hi & E). rewrite Hlen in Hi. specialize (Hle i Hi).
    rewrite !combine_nth in E by (try (rewrite !combine_length); lia). injection E as <- <- <- <-. cbn [fst snd].
    destruct Hle as [Hle _]. unfold trust_box1_ifopt, trust_box1. rewrite Hc by exact Hle.
    rewrite !nmax_R, !nmin_R. f_equal; f_equal; f_equal; unfold Rmin, Rmax; repeat destruct Rle_dec; lra.
  - intros i Hi. destruct (Hle i Hi) as [Hle' Hb].
    unfold trust_boxes_sqp.
    set (f := fun t : R * R * R * R => trust_box1 (fst (fst (fst t))) (snd (fst (fst t))) (snd (fst t)) (snd t)).
    rewrite (nth_indep _ _ (f (((0, 0), 0), 0))) by (rewrite map_length; lia).
    rewrite (map_nth f). rewrite !combine_nth by (try (rewrite !combine_length); lia). unfold f. cbn [fst snd].
    generalize dependent (nth i box 0). generalize dependent (nth i lb 0). generalize (nth i ub 0), (nth i x 0).
    intros hi xi lo Hle' bx Hb.
    unfold good_box, trust_box1. rewrite nmax_R, nmin_R, Hc by exact Hle'. cbn [fst snd]. rnum. unfold Rmin, Rmax, Rabs.
    repeat destruct Rle_dec; repeat split; intros; try lra; repeat destruct Rle_dec; try destruct Rcase_abs; try lra.
Qed.
Print Assumptions C13_sqp_trust_box.
Example C13_sqp_ex :
  trust_boxes_sqp [0; 0]%Q [10; 10]%Q [-5; 9]%Q [1; 2]%Q = [(0, 1); (7, 10)]%Q /\
  trust_boxes_ifopt [0; 0]%Q [10; 10]%Q [-5; 9]%Q [1; 2]%Q = [(0, 1); (7, 10)]%Q.
Proof. vm_compute. split; reflexivity. Qed.

(** ** C35 *)
(** For any sequence of terms added to an empty ConvexObjective over any model, minimising the
    objective over the auxiliary variables (subject to the added bounds and constraints) gives, at
    every point of the original variables, the sum of the exact terms, and it is attained. *)
Theorem C35_terms_exact :
  forall (m : list (option R * option R)) (ops : list (op R)) (x : list R),
    length x = length m -> Forall (op_ok (length m)) ops ->
    let s := build m ops in
    min_over_aux (length (fst s)) (obj_feasible (length m) s) (quad_value (co_quad (snd s))) x
      (rsum (fun o => match o with
                      | OpAff a => aff_value a x
                      | OpQuad q => quad_value q x
                      | OpHinge a c => c * Rmax (aff_value a x) 0
                      | OpAbs a c => c * Rabs (aff_value a x)
                      | OpHinges es => rsum (fun a => Rmax (aff_value a x) 0) es
                      | OpL1 es => rsum (fun a => Rabs (aff_value a x)) es
                      | OpL2 es => rsum (fun a => aff_value a x * aff_value a x) es
                      | OpMax _ => 0
                      end) ops).
Proof. exact build_min. Qed.
Print Assumptions C35_terms_exact.

Example C35_ex :
  let a := {| a_const := 1; a_coeffs := [2]; a_vars := [0%nat] |} in
  Forall (op_ok 1) [OpHinge a 3; OpAbs a 2; OpL2 [a]] /\
  length (fst (build [(None, None)] [OpHinge a 3; OpAbs a 2; OpL2 [a]])) = 4%nat.
Proof. cbn. split; [|reflexivity]. unfold aff_in, wf_aff. repeat (constructor; cbn; try lra; try lia). Qed.

(** ** C73: constraints as exact penalties (cntsToCosts) *)
Theorem C73_penalties_exact :
  forall (m : list (option R * option R)) (cs : list (ccnts R)) (ks x : list R),
    length cs = length ks -> Forall (fun k => 0 <= k) ks -> length x = length m ->
    Forall (fun c => Forall (aff_in (length m)) (cc_eqs c) /\ Forall (aff_in (length m)) (cc_ineqs c)) cs ->
    let (m', os) := cnts_to_costs m cs ks in
    min_over_aux (length m')
      (fun pt => (forall i b, (length m <= i)%nat -> nth_error m' i = Some b -> in_bnd b (nth i pt 0)) /\
                 Forall (fun o => Forall (fun a => aff_value a pt = 0) (co_eqs o) /\
                                  Forall (fun a => aff_value a pt <= 0) (co_ineqs o)) os)
      (fun pt => rsum (fun o => quad_value (co_quad o) pt) os) x
      (rsum (fun ck => snd ck * ccnts_violation (fst ck) x) (combine cs ks)).
Proof.
  intros m cs ks x Hl Hk Hx Hc.
  pose proof (cnts_to_costs_rep (length m) cs ks m [] (fun _ => 0) Hl Hc Hk (Nat.le_refl _)) as H.
  destruct (cnts_to_costs m cs ks) as [m' os]. cbn [app] in H.
  assert (H0 : Rep (length m) (length m) (all_feasible (length m) m [])
     (fun pt => rsum (fun o : cobj R => quad_value (co_quad o) pt) []) (fun _ => 0)).
  { eapply Rep_ext; [apply Rep_trivial|..]; intros; auto. split; [|tauto]. intros _. split; [|constructor].
    intros i b Hi E. assert (nth_error m i <> None) by congruence. apply nth_error_Some in H1. lia. }
  specialize (H H0). destruct H as (_ & _ & H). specialize (H x Hx). cbn beta in H. rewrite Rplus_0_l in H. exact H.
Qed.
Print Assumptions C73_penalties_exact.
Example C73_ex :
  let a := {| a_const := (-1)%Q; a_coeffs := [1%Q]; a_vars := [0%nat] |} in
  let c := {| cc_eqs := [a]; cc_ineqs := [a; a] |} in
  length (fst (cnts_to_costs [(None, None)] [c; c] [10%Q; 5%Q])) = 9%nat /\
  map (@co_vars Q) (snd (cnts_to_costs [(None, None)] [c; c] [10%Q; 5%Q])) = [[1; 2; 3; 4]; [5; 6; 7; 8]]%nat /\
  ccnts_violation c [4%Q] = 9%Q.
Proof. vm_compute. repeat split. Qed.

(** ** C36 *)
(** addMax does not change the objective, and removeFromModel leaves its variable behind. *)
Theorem C36_refuted :
  exists (m : list (option R * option R)) (es : list (aff R)) (x : list R),
    length x = length m /\ Forall (aff_in (length m)) es /\ es <> [] /\ Forall (fun a => aff_value a x = 5) es /\
    let s := build m [OpMax es] in
    min_over_aux (length (fst s)) (obj_feasible (length m) s) (quad_value (co_quad (snd s))) x 0 /\
    length (remove_from_model s) = S (length m).
Proof.
  exists [(None, None)], [aff_const 5], [0]. split; [reflexivity|]. split; [repeat constructor|]. split; [discriminate|].
  split; [repeat constructor; apply aff_const_value|]. cbv [build fold_left apply_op add_max add_var]. cbn [fst snd co_quad co_eqs co_ineqs cobj_empty app].
  split; [|reflexivity]. split.
  - intros z _ _. rewrite quad_const_value. rnum. lra.
  - exists [5]. split; [reflexivity|]. split; [|apply quad_const_value]. split; [|split; [constructor|]]; cbn [fst].
    + intros i b Hi E. destruct i as [|[|i]]; cbn in *; try lia; [injection E as <-; split; exact I|destruct i; discriminate].
    + cbn [snd co_ineqs map]. constructor; [|constructor]. unfold aff_dec_var. rewrite aff_dec_value, aff_const_value, aff_var_value by reflexivity. cbn [length app nth]. lra.
Qed.
Print Assumptions C36_refuted.

(** What holds: the auxiliary variable is constrained to be at least every expression and can equal
    their maximum; every other operation cleans up completely. *)
Theorem C36_partial :
  forall (m : list (option R * option R)) (es : list (aff R)) (x : list R) (v : R),
    length x = length m -> Forall (aff_in (length m)) es ->
    (obj_feasible (length m) (build m [OpMax es]) (x ++ [v]) <-> Forall (fun a => aff_value a x <= v) es) /\
    forall ops, Forall (fun o => match o with OpMax _ => False | _ => True end) ops ->
      remove_from_model (build m ops) = m.
Proof.
  intros m es x v Hx He. split; [|intros ops Ho; apply remove_build; exact Ho].
  unfold obj_feasible. cbn [build fold_left apply_op add_max add_var fst snd co_eqs co_ineqs cobj_empty app].
  rewrite Forall_map.
  assert (E : Forall (fun a => aff_value (aff_dec_var a (length m)) (x ++ [v]) <= 0) es <-> Forall (fun a => aff_value a x <= v) es).
  { assert (Hv : forall a, In a es -> aff_value (aff_dec_var a (length m)) (x ++ [v]) = aff_value a x - v).
    { intros a Ha. rewrite Forall_forall in He. destruct (He a Ha) as [Hw Hr]. unfold aff_dec_var.
      rewrite aff_dec_value, aff_var_value, aff_value_app by (rewrite ?Hx; assumption).
      rewrite app_nth2, Hx, Nat.sub_diag by lia. reflexivity. }
    rewrite !Forall_forall. split; intros H a Ha; specialize (H a Ha); rewrite ?Hv in * by exact Ha; lra. }
  rewrite E. split; [tauto|]. intros H. split; [|split; [constructor|exact H]].
  intros i b Hi Eb. rewrite nth_error_app2 in Eb by lia. destruct (i - length m)%nat as [|k]; cbn in Eb.
  - injection Eb as <-. split; exact I.
  - destruct k; discriminate.
Qed.
Print Assumptions C36_partial.
Example C36_ex :
  let a := {| a_const := 1%Q; a_coeffs := [2%Q]; a_vars := [0%nat] |} in
  length (fst (build [(None, Some 3%Q)] [OpHinge a 1%Q; OpAbs a 1%Q; OpL1 [a; a]])) = 8%nat /\
  remove_from_model (build [(None, Some 3%Q)] [OpHinge a 1%Q; OpAbs a 1%Q; OpL1 [a; a]]) = [(None, Some 3%Q)].
Proof. vm_compute. split; reflexivity. Qed.

(** ** C37 *)
(** The lower bound is ignored: a point below it is returned unchanged. *)
Theorem C37_refuted :
  exists lo hi x delta : R, lo <= hi /\ 0 < delta /\ delta < hi - lo /\
    closest_feasible [lo] [hi] [x] delta = [x] /\ x < lo.
Proof.
  exists 0, 10, (-5), (1 / 1000). repeat split; try lra. cbn. unfold closest_feasible1. rewrite nfmin_R. rnum.
  rewrite Rmin_right by lra. reflexivity.
Qed.
Print Assumptions C37_refuted.

(** What holds: the upper bound (minus delta) is respected, nothing else changes, and
    getCentralFeasiblePoint returns the centre of wide-enough boxes. *)
Theorem C37_partial :
  forall (lb ub x : list R) (delta : R), length lb = length x -> length ub = length x -> 0 <= delta ->
    length (closest_feasible lb ub x delta) = length x /\
    (forall i, (i < length x)%nat ->
       let y := nth i (closest_feasible lb ub x delta) 0 in
       y <= nth i ub 0 - delta /\ (nth i x 0 <= nth i ub 0 - delta -> y = nth i x 0) /\
       (nth i lb 0 <= nth i x 0 -> delta <= nth i ub 0 - nth i lb 0 -> nth i lb 0 <= y)) /\
    (forall i, (i < length x)%nat -> 2 * delta <= nth i ub 0 - nth i lb 0 ->
       nth i (central_feasible lb ub delta) 0 = (nth i lb 0 + nth i ub 0) / 2).
Proof.
  intros lb ub x delta Hl Hu Hd.
  assert (Hn : forall (xs : list R) i, length xs = length x -> (i < length x)%nat ->
    nth i (closest_feasible lb ub xs delta) 0 = Rmin (nth i ub 0 - delta) (nth i xs 0)).
  { intros xs i Hxs Hi. unfold closest_feasible.
    set (f := fun t : R * R * R => closest_feasible1 (fst (fst t)) (snd (fst t)) (snd t) delta).
    rewrite (nth_indep _ _ (f ((0, 0), 0))) by (rewrite map_length, !combine_length; lia).
    rewrite (map_nth f), !combine_nth by (try rewrite combine_length; lia). unfold f, closest_feasible1. cbn [fst snd].
    rewrite nfmin_R. reflexivity. }
  split; [unfold closest_feasible; rewrite map_length, !combine_length; lia|]. split.
  - intros i Hi y. unfold y. rewrite Hn by auto. unfold Rmin. destruct Rle_dec; repeat split; lra.
  - intros i Hi Hw. unfold central_feasible. rewrite Hn; [|rewrite map_length, combine_length; lia|exact Hi].
    set (g := fun b : R * R => ((fst b + snd b) / nofZ 2)%num).
    rewrite (nth_indep (map g _) 0 (g (0, 0))) by (rewrite map_length, combine_length; lia).
    rewrite (map_nth g), combine_nth by lia. unfold g. cbn [fst snd]. rnum. rewrite Rmin_right; lra.
Qed.
Print Assumptions C37_partial.
Example C37_ex : closest_feasible [0; 0]%Q [10; 10]%Q [12; 5]%Q 1%Q = [9; 5]%Q /\ central_feasible [0]%Q [10]%Q 1%Q = [5]%Q.
Proof. vm_compute. split; reflexivity. Qed.

(** ** C38 *)
Theorem C38_violations :
  forall (ty : ctype) (vals : list R) (c : ccnts R) (x : list R),
    (Forall (fun v => 0 <= v) (cnt_violations ty vals) /\ length (cnt_violations ty vals) = length vals /\
     (Forall (fun v => v = 0) (cnt_violations ty vals) <->
      Forall (fun v => match ty with EQ => v = 0 | INEQ => v <= 0 end) vals) /\
     (cnt_violation ty vals = 0 <-> Forall (fun v => match ty with EQ => v = 0 | INEQ => v <= 0 end) vals)) /\
    (Forall (fun v => 0 <= v) (ccnts_violations c x) /\
     (ccnts_violation c x = 0 <->
      Forall (fun a => aff_value a x = 0) (cc_eqs c) /\ Forall (fun a => aff_value a x <= 0) (cc_ineqs c))).
Proof.
  intros ty vals c x. destruct (violations_spec ty vals) as (A & B & C & _ & D).
  destruct (ccnts_violations_spec c x) as (E & F & _). auto.
Qed.
Print Assumptions C38_violations.
(** each entry is the distance to the feasible set, and violation() is the sum *)
Theorem C38_violation_amounts :
  forall (ty : ctype) (vals : list R),
    cnt_violations ty vals = map (fun v => match ty with EQ => Rabs v | INEQ => Rmax v 0 end) vals /\
    cnt_violation ty vals = rsum (fun v => match ty with EQ => Rabs v | INEQ => Rmax v 0 end) vals.
Proof.
  intros ty vals. assert (H : cnt_violations ty vals = map (fun v => match ty with EQ => Rabs v | INEQ => Rmax v 0 end) vals).
  { destruct ty; cbn; [reflexivity|]. apply map_ext. intros v. apply pospart_Rmax. }
  split; [exact H|]. unfold cnt_violation. rewrite vsum_R, H. reflexivity.
Qed.
Print Assumptions C38_violation_amounts.
Example C38_ex : cnt_violations INEQ [-3; 2; 0]%Q = [0; 2; 0]%Q /\ cnt_violations EQ [-3; 0]%Q = [3; 0]%Q.
Proof. vm_compute. split; reflexivity. Qed.

(** With doubles, a NaN inequality value counts as satisfied: pospart(NaN) = 0. *)
Theorem C38_nan_refuted :
  exists v : SpecFloat.spec_float, @nisnan _ f64_Num v = true /\
    @cnt_violations _ f64_Num INEQ [v] = [@nzero _ f64_Num] /\
    @neqb _ f64_Num (@cnt_violation _ f64_Num INEQ [v]) (@nzero _ f64_Num) = true.
Proof. exists SpecFloat.S754_nan. vm_compute. repeat split. Qed.
Print Assumptions C38_nan_refuted.

(** ** C39 *)
(** The convexification of an error-function cost: minimised over the auxiliary variables it is
    the weighted penalty of the linearised errors, at every point; at the expansion point it is
    value(x).  Weights are non-negative unless the penalty is SQUARED, and no non-zero Jacobian
    entry is small enough to be dropped by cleanupAff. *)
Theorem C39_cost_convex :
  forall (m : list (option R * option R)) (p : penalty) (coeffs y x : list R) (rows : list (list R)) (vs : list nat),
    Forall (fun v => (v < length m)%nat) vs -> Forall (fun r => length r = length vs) rows ->
    length y = length rows -> coeffs = [] \/ length coeffs = length y ->
    p = SQUARED \/ Forall (fun w => 0 <= w) coeffs ->
    Forall (Forall (fun c => c = 0 \/ 1 / 10 ^ 7 < Rabs c)) rows ->
    let s := build m (err_cost_ops p coeffs y (get_vec x vs) rows vs) in
    let pen e := match p with SQUARED => e * e | ABS => Rabs e | HINGE => Rmax e 0 end in
    let ws := match coeffs with [] => repeat 1 (length y) | _ => coeffs end in
    (forall pt, length pt = length m ->
       min_over_aux (length (fst s)) (obj_feasible (length m) s) (quad_value (co_quad (snd s))) pt
         (rsum (fun t => fst t * pen (fst (snd t) +
             rsum (fun gv => fst gv * (nth (snd gv) pt 0 - nth (snd gv) x 0)) (combine (snd (snd t)) vs)))
           (combine ws (combine y rows)))) /\
    (length x = length m ->
       min_over_aux (length (fst s)) (obj_feasible (length m) s) (quad_value (co_quad (snd s))) x
         (err_cost_value p coeffs y)).
Proof.
  intros m p coeffs y x rows vs Hv Hr Hy Hc Hs Hz s pen ws.
  assert (H : forall pt, length pt = length m ->
       min_over_aux (length (fst s)) (obj_feasible (length m) s) (quad_value (co_quad (snd s))) pt
         (rsum (fun t => fst t * pen_R p (fst (snd t) + rsum (lin_term x pt) (combine (snd (snd t)) vs)))
           (combine (weights coeffs (length y)) (combine y rows)))).
  { intros pt Hpt. rewrite <- row_lin_exact by exact Hz. apply err_cost_min; assumption. }
  split; [exact H|]. intros Hx. specialize (H x Hx). rewrite err_cost_value_R.
  rewrite <- (combine_drop_snd (fun w e => w * pen_R p e) (weights coeffs (length y)) y rows Hy).
  match type of H with min_over_aux _ _ _ _ ?v => match goal with |- min_over_aux _ _ _ _ ?v' => replace v' with v; [exact H|] end end.
  apply rsum_ext. intros [w [y0 r]] _. cbn [fst snd]. rewrite lin_term_self, Rplus_0_r. reflexivity.
Qed.
Print Assumptions C39_cost_convex.
Example C39_ex :
  err_cost_value ABS [2; 0; 3]%Q [-1; 4; 5]%Q = 17%Q /\
  length (@err_cost_ops Q _ ABS [2; 0; 3]%Q [-1; 4; 5]%Q (get_vec [7; 8]%Q [1; 0]%nat) [[1; 2]; [3; 4]; [0; 6]]%Q [1; 0]%nat) = 2%nat.
Proof. vm_compute. split; reflexivity. Qed.

(** In general the linearised error of a row differs from the first-order model by at most 1e-7
    times the sum of the absolute variable values. *)
Theorem C39_cleanup_error :
  forall (y0 : R) (x g pt : list R) (vs : list nat),
    Rabs (aff_value (aff_from_val_grad y0 (get_vec x vs) g vs) pt -
          (y0 + rsum (fun gv => fst gv * (nth (snd gv) pt 0 - nth (snd gv) x 0)) (combine g vs)))
      <= 1 / 10 ^ 7 * rsum (fun v => Rabs (nth v pt 0)) vs.
Proof.
  intros y0 x g pt vs. rewrite val_grad_value.
  replace (y0 + rsum (lin_term x pt) (combine g vs) - rsum (tm pt) (small_terms g vs) -
     (y0 + rsum (fun gv => fst gv * (nth (snd gv) pt 0 - nth (snd gv) x 0)) (combine g vs)))
    with (- rsum (tm pt) (small_terms g vs)) by (unfold lin_term; ring).
  rewrite Rabs_Ropp. apply small_terms_bound.
Qed.
Print Assumptions C39_cleanup_error.

(** The dropped coefficients stay in the constant, so the model can be far off at the expansion
    point itself: error 0, gradient 1e-8, x = 1e9. *)
Theorem C39_cleanup_refuted :
  exists (y0 : R) (x g : list R) (vs : list nat), length g = length vs /\ Forall (fun v => (v < length x)%nat) vs /\
    y0 = 0 /\ aff_value (aff_from_val_grad y0 (get_vec x vs) g vs) x = -10.
Proof.
  exists 0, [10 ^ 9], [1 / 10 ^ 8], [0%nat]. split; [reflexivity|]. split; [repeat constructor|]. split; [reflexivity|].
  rewrite val_grad_value. unfold small_terms, keep_term. cbn [combine filter fst]. rnum. rewrite Rdec_m7.
  assert (Hk : Rltb (1 / 10 ^ 7) (Rabs (1 / 10 ^ 8)) = false).
  { apply Rltb_false. rewrite Rabs_pos_eq by lra. lra. }
  rewrite Hk. cbn [negb]. rewrite !rsum_cons, !rsum_nil. unfold lin_term. cbn [fst snd nth]. lra.
Qed.
Print Assumptions C39_cleanup_refuted.

(** With a negative weight the cost is w*|e| but the convexification is |w*e|. *)
Theorem C39_negative_weight_refuted :
  exists (m : list (option R * option R)) (coeffs y x : list R) (rows : list (list R)) (vs : list nat),
    Forall (fun v => (v < length m)%nat) vs /\ Forall (fun r => length r = length vs) rows /\ length x = length m /\
    length coeffs = length y /\ length y = length rows /\
    let s := build m (err_cost_ops ABS coeffs y (get_vec x vs) rows vs) in
    err_cost_value ABS coeffs y = -6 /\
    min_over_aux (length (fst s)) (obj_feasible (length m) s) (quad_value (co_quad (snd s))) x 6.
Proof.
  exists [(None, None)], [-2], [3], [0], [[1]], [0%nat].
  assert (E : err_cost_ops ABS [-2] [3] (get_vec [0] [0%nat]) [[1]] [0%nat] =
              [OpAbs (aff_scale (aff_from_val_grad 3 (get_vec [0] [0%nat]) [1] [0%nat]) (-2)) none_]).
  { unfold err_cost_ops. cbn [err_weights map combine length flat_map app]. rnum.
    destruct (Reqb_spec (-2) 0); [lra|]. reflexivity. }
  repeat split; try (repeat constructor; fail).
  - unfold err_cost_value. cbn [map combine pen_value fst snd]. rewrite vsum_R. cbn [Rsum]. rnum.
    rewrite Rabs_pos_eq by lra. lra.
  - rewrite E. pose proof (build_min [(None, None)] [OpAbs (aff_scale (aff_from_val_grad 3 (get_vec [0] [0%nat]) [1] [0%nat]) (-2)) none_] [0] eq_refl) as H.
    match type of H with ?A -> _ => assert (Ha : A) end.
    { constructor; [|constructor]. cbn [op_ok]. split; [|rnum; lra]. apply aff_in_scale, val_grad_in; [reflexivity|repeat constructor]. }
    specialize (H Ha). cbn beta zeta in H. destruct H as [H _]. rewrite rsum_cons, rsum_nil in H. cbn [op_exact] in H.
    rewrite aff_scale_value, val_grad_value, small_terms_zero in H.
    + rewrite lin_term_self in H. rnum. replace 6 with (1 * Rabs ((3 + 0 - 0) * -2) + 0); [exact H|].
      replace ((3 + 0 - 0) * -2) with (-6) by ring. rewrite Rabs_left by lra. lra.
    + constructor; [|constructor]. right. rewrite Rabs_pos_eq by lra. lra.
  - rewrite E. pose proof (build_min [(None, None)] [OpAbs (aff_scale (aff_from_val_grad 3 (get_vec [0] [0%nat]) [1] [0%nat]) (-2)) none_] [0] eq_refl) as H.
    match type of H with ?A -> _ => assert (Ha : A) end.
    { constructor; [|constructor]. cbn [op_ok]. split; [|rnum; lra]. apply aff_in_scale, val_grad_in; [reflexivity|repeat constructor]. }
    specialize (H Ha). cbn beta zeta in H. destruct H as [_ H]. rewrite rsum_cons, rsum_nil in H. cbn [op_exact] in H.
    rewrite aff_scale_value, val_grad_value, small_terms_zero in H.
    + rewrite lin_term_self in H. rnum. replace 6 with (1 * Rabs ((3 + 0 - 0) * -2) + 0); [exact H|].
      replace ((3 + 0 - 0) * -2) with (-6) by ring. rewrite Rabs_left by lra. lra.
    + constructor; [|constructor]. right. rewrite Rabs_pos_eq by lra. lra.
Qed.
Print Assumptions C39_negative_weight_refuted.

(** Constraints from error functions: at the expansion point the linearisation has the same total
    violation as the constraint, for any weights (rows with weight 0 are left out of both). *)
Theorem C39_constraint_convex :
  forall (ty : ctype) (coeffs y x : list R) (rows : list (list R)) (vs : list nat),
    Forall (Forall (fun c => c = 0 \/ 1 / 10 ^ 7 < Rabs c)) rows -> length y = length rows ->
    coeffs = [] \/ length coeffs = length y ->
    ccnts_violation (err_cnt_convex ty coeffs y (get_vec x vs) rows vs) x = cnt_violation ty (err_cnt_value coeffs y).
Proof.
  intros ty coeffs y x rows vs Hz Hy Hc. rewrite (proj2 (C38_violation_amounts ty _)).
  unfold ccnts_violation, ccnts_violations. rewrite vsum_R, Rsum_app.
  destruct ty; cbn [err_cnt_convex cc_eqs cc_ineqs map Rsum].
  - fold (rsum (fun a => nabs (aff_value a x)) (err_cnt_affs coeffs y (get_vec x vs) rows vs)). rnum.
    rewrite (err_cnt_affs_values coeffs y x rows vs Hz Hy Hc Rabs Rabs_R0). apply Rplus_0_r.
  - fold (rsum (fun a => pospart (aff_value a x)) (err_cnt_affs coeffs y (get_vec x vs) rows vs)).
    rewrite (rsum_ext _ (fun a => Rmax (aff_value a x) 0)) by (intros; apply pospart_Rmax).
    rewrite (err_cnt_affs_values coeffs y x rows vs Hz Hy Hc (fun v => Rmax v 0)) by (apply Rmax_left; lra). ring.
Qed.
Print Assumptions C39_constraint_convex.
Example C39_cnt_ex :
  ccnts_violation (err_cnt_convex INEQ [2; 0; 3]%Q [-1; 4; 5]%Q (get_vec [7; 8]%Q [1; 0]%nat) [[1; 2]; [3; 4]; [0; 6]]%Q [1; 0]%nat) [7; 8]%Q = 15%Q.
Proof. vm_compute. reflexivity. Qed.

(** ** C72: scalar-function costs *)
(** The diagonal quadratic model: second-order expansion with the Hessian diagonal clamped at 0;
    hence equal to the value at the expansion point, and never below its tangent. *)
Theorem C72_func_cost_model :
  forall (val : R) (grad hess x : list R) (vs : list nat) (pt : list R),
    length grad = length vs -> length hess = length vs ->
    let xe := get_vec x vs in
    let q := func_cost_diag val grad hess xe vs in
    quad_value q pt =
      val + rsum (fun t => let '((g, h), (x0, v)) := t in
                    g * (nth v pt 0 - x0) + / 2 * Rmax h 0 * (nth v pt 0 - x0) * (nth v pt 0 - x0))
              (combine (combine grad hess) (combine xe vs)) /\
    quad_value q x = val /\
    val + rsum (fun t => let '((g, h), (x0, v)) := t in g * (nth v pt 0 - x0))
              (combine (combine grad hess) (combine xe vs)) <= quad_value q pt.
Proof.
  intros val grad hess x vs pt Hg Hh xe q.
  assert (Hx : length xe = length vs) by apply map_length.
  assert (Hq : forall pt, quad_value q pt = _) by (intros pt'; apply (func_cost_diag_value val grad hess xe vs pt' Hg Hh Hx)).
  split; [apply Hq|]. split.
  - rewrite Hq. rewrite (rsum_ext _ (fun _ => 0)); [rewrite rsum_zero; ring|]. intros [[g h] [x0 v]] Hin.
    apply in_combine_r in Hin. unfold xe, get_vec in Hin.
    assert (x0 = nth v x 0) as ->; [|ring].
    clear - Hin. induction vs as [|v0 vs IH]; [contradiction|]. cbn in Hin. destruct Hin as [E|Hin]; [injection E as <- <-; reflexivity|auto].
  - rewrite Hq. apply Rplus_le_compat_l. apply rsum_le. intros [[g h] [x0 v]] _.
    assert (0 <= / 2 * Rmax h 0 * (nth v pt 0 - x0) * (nth v pt 0 - x0)); [|lra].
    rewrite Rmult_assoc. apply Rmult_le_pos; [|apply Rle_0_sqr]. pose proof (Rmax_r h 0). lra.
Qed.
Print Assumptions C72_func_cost_model.

(** Numerical derivatives are exact on functions that are quadratic along the coordinate axes
    (central differences) and off by exactly eps times the curvature for forward differences. *)
Theorem C72_numerical_derivatives :
  forall (f : list R -> R) (x : list R) (eps : R) (a h : nat -> R), eps <> 0 ->
    (forall i d, (i < length x)%nat -> f (upd x i (nth i x 0 + d)) = f x + a i * d + h i * d * d) ->
    (forall i, (i < length x)%nat ->
       nth i (snd (fst (grad_diag_hess f x eps))) 0 = a i /\ nth i (snd (grad_diag_hess f x eps)) 0 = 2 * h i /\
       nth i (forward_grad f x eps) 0 = a i + h i * eps) /\
    fst (fst (grad_diag_hess f x eps)) = f x /\
    length (snd (fst (grad_diag_hess f x eps))) = length x /\ length (snd (grad_diag_hess f x eps)) = length x.
Proof.
  intros f x eps a h He Hf. split.
  - intros i Hi. unfold grad_diag_hess, forward_grad, indices. cbn [fst snd].
    assert (Hm : forall F : nat -> R, nth i (map F (seq 0 (length x))) 0 = F i).
    { intros F. rewrite (nth_indep _ 0 (F 0%nat)) by (rewrite map_length, seq_length; exact Hi).
      rewrite map_nth, seq_nth by exact Hi. reflexivity. }
    cbn beta. rewrite !Hm. rnum. unfold Rminus at 2. rewrite (Hf i (- (eps / 2)) Hi), !(Hf i _ Hi).
    replace (nth i x 0 - eps / 2) with (nth i x 0 + - (eps / 2)) by ring. rewrite ?(Hf i _ Hi).
    repeat split; field; lra.
  - unfold grad_diag_hess, indices. cbn [fst snd]. rewrite !map_length, !seq_length. auto.
Qed.
Print Assumptions C72_numerical_derivatives.
(** the forward-difference Jacobian is exact on affine error functions *)
Theorem C72_forward_jacobian :
  forall (f : list R -> list R) (x : list R) (eps : R) (J : nat -> nat -> R), eps <> 0 ->
    (forall i d, (i < length x)%nat -> length (f (upd x i (nth i x 0 + d))) = length (f x) /\
       forall r, (r < length (f x))%nat -> nth r (f (upd x i (nth i x 0 + d))) 0 = nth r (f x) 0 + J r i * d) ->
    length (forward_jac_cols f x eps) = length x /\
    forall r c, (r < length (f x))%nat -> (c < length x)%nat ->
      nth r (nth c (forward_jac_cols f x eps) []) 0 = J r c.
Proof.
  intros f x eps J He Hf. unfold forward_jac_cols, indices. split; [rewrite map_length, seq_length; reflexivity|].
  intros r c Hr Hc.
  set (F := fun i : nat => map (fun p : R * R => ((fst p - snd p) / eps)%num) (combine (f (upd x i (nth i x nzero + eps)%num)) (f x))).
  rewrite (nth_indep _ [] (F 0%nat)) by (rewrite map_length, seq_length; exact Hc).
  rewrite map_nth, seq_nth by exact Hc. unfold F. cbn [Nat.add]. rnum.
  destruct (Hf c eps Hc) as [Hl Hv]. specialize (Hv r Hr).
  set (g := fun p : R * R => (fst p - snd p) / eps).
  rewrite (nth_indep _ 0 (g (0, 0))) by (rewrite map_length, combine_length, Hl; lia).
  rewrite (map_nth g), combine_nth by exact Hl. unfold g. cbn [fst snd]. rewrite Hv. field. exact He.
Qed.
Print Assumptions C72_forward_jacobian.
Example C72_ex :
  let f := fun x : list Q => (3 * nth 0 x 0 * nth 0 x 0 + nth 1 x 0)%Q in
  Forall2 Qeq (snd (fst (grad_diag_hess f [2; 5]%Q (1 # 4)))) [12; 1]%Q /\
  Forall2 Qeq (snd (grad_diag_hess f [2; 5]%Q (1 # 4))) [6; 0]%Q /\
  Forall2 Qeq (forward_grad f [2; 5]%Q (1 # 4)) [51 # 4; 1]%Q.
Proof. cbv zeta. repeat split; repeat constructor. Qed.
