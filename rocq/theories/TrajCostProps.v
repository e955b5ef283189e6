(** * Properties of the joint trajectory costs and constraints (C59, C60, C89), over the reals *)
From Coq Require Import ZArith List Bool Reals Lra Lia.
From Verif Require Import Num NumFacts RSums Common ScoExprModel ScoExprProofs ModelingModel ModelingSpec ModelingProofs ArrayModel ArrayProps TrajCostModel.
Import ListNotations.
Local Open Scope R_scope.

(** ** What the terms are about *)
(** the finite difference of a trajectory X(step, joint) *)
Definition difference (o : order) (X : Z -> Z -> R) (i j : Z) : R :=
  match o with
  | Pos => X i j
  | Vel => X (i + 1)%Z j - X i j
  | Acc => X (i + 2)%Z j - 2 * X (i + 1)%Z j + X i j
  | Jerk => X (i + 3)%Z j - 3 * X (i + 2)%Z j + 3 * X (i + 1)%Z j - X i j
  end.
Definition steps (o : order) : Z := match o with Pos => 0 | Vel => 1 | Acc => 2 | Jerk => 3 end.
Definition at_joint (v : list R) (j : Z) : R := nth (Z.to_nat j) v 0.
(** difference minus target, [f] being the variables of the trajectory *)
Definition deviation (o : order) (f : Z -> Z -> nat) (targets x : list R) (i j : Z) : R :=
  difference o (fun i j => nth (f i j) x 0) i j - at_joint targets j.
(** sum over the steps first..last - steps o and all joints *)
Definition over_cells (o : order) (first last n : Z) (h : Z -> Z -> R) : R :=
  bigsum (Z.to_nat (last - steps o - first + 1)) (fun k => bigsum (Z.to_nat n) (fun j => h (first + Z.of_nat k)%Z (Z.of_nat j))).
(** the range lies in a trajectory of m steps and is long enough *)
Definition fits (o : order) (m first last : Z) : Prop := (0 <= first /\ first + steps o <= last /\ last < m)%Z.
Definition sized (n : Z) (v : list R) : Prop := Z.of_nat (length v) = n.

(** ** Lists indexed by ranges *)
Definition mat {A} (g : Z -> Z -> A) (a c n : Z) : list (list A) := map (fun i => map (g i) (range 0 n)) (range a c).

Lemma map_nth_in {A B} (f : A -> B) l k d d' : (k < length l)%nat -> nth k (map f l) d' = f (nth k l d).
Proof. revert k; induction l; intros [|k] Hk; cbn in *; try lia; auto. apply IHl; lia. Qed.
Lemma range_len a c : (0 <= c)%Z -> length (range a c) = Z.to_nat c.
Proof. intros. unfold range. rewrite map_length, seq_length. reflexivity. Qed.
Lemma range_nth a c k d : (k < Z.to_nat c)%nat -> nth k (range a c) d = (a + Z.of_nat k)%Z.
Proof.
  intros. unfold range. rewrite (nth_indep _ d (a + Z.of_nat 0)%Z) by (rewrite map_length, seq_length; auto).
  rewrite (map_nth (fun k => (a + Z.of_nat k)%Z)), seq_nth by auto. reflexivity.
Qed.
Lemma omap_ok {A B} (f : A -> option B) (g : A -> B) l : (forall a, In a l -> f a = Some (g a)) -> omap f l = Some (map g l).
Proof.
  induction l as [|a l IH]; intros H; cbn; auto. rewrite H by (left; auto). cbn. rewrite IH by (intros; apply H; right; auto). reflexivity.
Qed.
Lemma rsum_range h a c : rsum h (range a c) = bigsum (Z.to_nat c) (fun k => h (a + Z.of_nat k)%Z).
Proof. unfold range, bigsum. rewrite rsum_map. reflexivity. Qed.
Lemma rsum_concat {A} (h : A -> R) (m : list (list A)) : rsum h (concat m) = rsum (rsum h) m.
Proof. induction m; cbn; auto. rewrite rsum_app, rsum_cons. congruence. Qed.
Lemma rsum_mat {A} (h : A -> R) (g : Z -> Z -> A) a c n :
  rsum h (concat (mat g a c n)) = bigsum (Z.to_nat c) (fun k => bigsum (Z.to_nat n) (fun j => h (g (a + Z.of_nat k)%Z (Z.of_nat j)))).
Proof.
  rewrite rsum_concat. unfold mat. rewrite rsum_map, rsum_range. apply bigsum_ext. intros k _. rewrite rsum_map, rsum_range. reflexivity.
Qed.
Lemma Rsum_mat (g : Z -> Z -> R) a c n :
  Rsum (concat (mat g a c n)) = bigsum (Z.to_nat c) (fun k => bigsum (Z.to_nat n) (fun j => g (a + Z.of_nat k)%Z (Z.of_nat j))).
Proof. rewrite <- (rsum_mat (fun x => x)). unfold rsum. rewrite map_id. reflexivity. Qed.
Lemma mat_ext {A} (g h : Z -> Z -> A) a c n : (forall i j, (a <= i < a + c)%Z -> (0 <= j < n)%Z -> g i j = h i j) -> mat g a c n = mat h a c n.
Proof.
  intros H. unfold mat. apply map_ext_in. intros i Hi. apply in_range in Hi. apply map_ext_in. intros j Hj. apply in_range in Hj. apply H; lia.
Qed.
Lemma mat_map {A B} (h : A -> B) (g : Z -> Z -> A) a c n : map (map h) (mat g a c n) = mat (fun i j => h (g i j)) a c n.
Proof. unfold mat. rewrite map_map. apply map_ext. intros; rewrite map_map; reflexivity. Qed.
Lemma nth_concat {A} (d : A) w : forall (rows : list (list A)) k j, Forall (fun r => length r = w) rows -> (k < length rows)%nat -> (j < w)%nat ->
  nth (k * w + j) (concat rows) d = nth j (nth k rows []) d.
Proof.
  induction rows as [|r rows IH]; intros k j F Hk Hj; cbn [length] in Hk; [lia|]. inversion F; subst. cbn [concat]. destruct k as [|k].
  - cbn. apply app_nth1. lia.
  - cbn [nth]. rewrite app_nth2 by nia. replace (S k * length r + j - length r)%nat with (k * length r + j)%nat by nia. apply IH; auto. lia.
Qed.
Lemma mat_rows {A} (g : Z -> Z -> A) a c n : (0 <= c)%Z -> (0 <= n)%Z -> length (mat g a c n) = Z.to_nat c /\ Forall (fun r => length r = Z.to_nat n) (mat g a c n).
Proof.
  intros. unfold mat. rewrite map_length, range_len by auto. split; auto. apply Forall_forall. intros r Hr. apply in_map_iff in Hr.
  destruct Hr as (i & <- & _). rewrite map_length. apply range_len; auto.
Qed.
Lemma concat_len {A} w (rows : list (list A)) : Forall (fun r => length r = w) rows -> length (concat rows) = (length rows * w)%nat.
Proof. induction 1; cbn; auto. rewrite app_length. lia. Qed.
Lemma mat_nth {A} (d : A) (g : Z -> Z -> A) a c n k j : (k < Z.to_nat c)%nat -> (j < Z.to_nat n)%nat ->
  nth (k * Z.to_nat n + j) (concat (mat g a c n)) d = g (a + Z.of_nat k)%Z (Z.of_nat j).
Proof.
  intros Hk Hj. destruct (mat_rows g a c n) as (L & F); try lia. rewrite nth_concat by (auto; lia).
  unfold mat. rewrite (nth_indep _ [] (map (g 0%Z) (range 0 n))) by (rewrite map_length, range_len; lia).
  rewrite (map_nth (fun i => map (g i) (range 0 n))). rewrite range_nth by lia.
  rewrite (nth_indep _ d (g (a + Z.of_nat k)%Z 0%Z)) by (rewrite map_length, range_len; lia).
  rewrite map_nth, range_nth by lia. f_equal.
Qed.

Lemma combine_range {B} (h : Z -> R) (v : list B) (d : B) n : Z.of_nat (length v) = n ->
  combine (map h (range 0 n)) v = map (fun j => (h j, nth (Z.to_nat j) v d)) (range 0 n).
Proof.
  intros <-. unfold range. rewrite Nat2Z.id, !map_map.
  assert (G : forall b, combine (map (fun x => h (0 + Z.of_nat x)%Z) (seq b (length v))) v =
             map (fun x => (h (0 + Z.of_nat x)%Z, nth (x - b) v d)) (seq b (length v))).
  { induction v as [|y v IH]; intros b; cbn; auto. rewrite Nat.sub_diag. f_equal. rewrite IH. apply map_ext_in. intros x Hx. apply in_seq in Hx.
    destruct (x - b)%nat eqn:E; [lia|]. replace (x - S b)%nat with n by lia. reflexivity. }
  rewrite G. apply map_ext. intros x. rewrite Nat.sub_0_r. repeat f_equal. lia.
Qed.
Lemma row_op_mat (op : R -> R -> R) g a c n v : sized n v -> row_op op (mat g a c n) v = mat (fun i j => op (g i j) (at_joint v j)) a c n.
Proof.
  intros Hv. unfold row_op, mat. rewrite map_map. apply map_ext. intros i. rewrite (combine_range (g i) v 0 n Hv), map_map. reflexivity.
Qed.
Lemma row_block_mat (g : Z -> Z -> R) a c n s k : (0 <= s)%Z -> (0 <= k)%Z -> (s + k <= c)%Z -> row_block (mat g a c n) s k = Ok (mat g (a + s) k n).
Proof.
  intros Hs Hk Hc. unfold row_block. assert (L : length (mat g a c n) = Z.to_nat c) by (unfold mat; rewrite map_length; apply range_len; lia).
  rewrite L, Z2Nat.id by lia. destruct (Z.leb_spec 0 s); [|lia]. destruct (Z.leb_spec 0 k); [|lia]. destruct (Z.leb_spec (s + k) c); [|lia]. cbn [andb].
  f_equal. unfold mat. rewrite (range_split a c s) by lia. rewrite map_app, skipn_app.
  rewrite skipn_all2 by (rewrite map_length, range_len; lia). rewrite map_length, range_len, Nat.sub_diag by lia. cbn [app skipn].
  rewrite (range_split (a + s) (c - s) k) by lia. rewrite map_app, firstn_app, firstn_all2 by (rewrite map_length, range_len; lia).
  rewrite map_length, range_len, Nat.sub_diag by lia. cbn. apply app_nil_r.
Qed.
Lemma range_shift a c s : range (a + s) c = map (fun i => (i + s)%Z) (range a c).
Proof. unfold range. rewrite map_map. apply map_ext. intros; lia. Qed.
Lemma combine_self {X A B} (f : X -> A) (g : X -> B) (l : list X) : combine (map f l) (map g l) = map (fun x => (f x, g x)) l.
Proof. induction l; cbn; congruence. Qed.
Lemma diff_axis0_mat (g : Z -> Z -> R) a c n : (1 <= c)%Z -> diff_axis0 (mat g a c n) = Ok (mat (fun i j => g (i + 1)%Z j - g i j) a (c - 1) n).
Proof.
  intros Hc. unfold diff_axis0. assert (L : length (mat g a c n) = Z.to_nat c) by (unfold mat; rewrite map_length; apply range_len; lia).
  rewrite L, Z2Nat.id by lia. rewrite !row_block_mat by lia. cbn [obind]. f_equal. rewrite Z.add_0_r. unfold mat. rewrite range_shift.
  rewrite map_map, combine_self, map_map. apply map_ext. intros i. cbn [fst snd]. rewrite combine_self, map_map. reflexivity.
Qed.
Lemma diff_times_S k (m : list (list R)) : diff_times (S k) m = obind (diff_axis0 m) (diff_times k).
Proof. reflexivity. Qed.
Lemma diff_times_mat o (g : Z -> Z -> R) a c n : (steps o + 1 <= c)%Z ->
  diff_times (Z.to_nat (reach o)) (mat g a c n) = Ok (mat (difference o g) a (c - steps o) n).
Proof.
  intros Hc. destruct o; cbn [reach steps] in *.
  - cbn. rewrite Z.sub_0_r. reflexivity.
  - change (Z.to_nat 1) with 1%nat. rewrite diff_times_S, diff_axis0_mat by lia. reflexivity.
  - change (Z.to_nat 2) with 2%nat. rewrite diff_times_S, diff_axis0_mat by lia. cbn [obind]. rewrite diff_times_S, diff_axis0_mat by lia. cbn [obind diff_times].
    f_equal. replace (c - 1 - 1)%Z with (c - 2)%Z by lia. apply mat_ext. intros. cbn. replace (i + 1 + 1)%Z with (i + 2)%Z by lia. ring.
  - change (Z.to_nat 3) with 3%nat. rewrite diff_times_S, diff_axis0_mat by lia. cbn [obind]. rewrite diff_times_S, diff_axis0_mat by lia. cbn [obind].
    rewrite diff_times_S, diff_axis0_mat by lia. cbn [obind diff_times].
    f_equal. replace (c - 1 - 1 - 1)%Z with (c - 3)%Z by lia. apply mat_ext. intros. cbn.
    replace (i + 1 + 1 + 1)%Z with (i + 3)%Z by lia. replace (i + 1 + 1)%Z with (i + 2)%Z by lia. ring.
Qed.

Section Terms.
  Variables (o : order) (vars : array nat) (m n : Z) (f : Z -> Z -> nat) (first last : Z) (targets : list R).
  Hypothesis Hvars : cells vars m n f.
  Hypothesis Hfits : fits o m first last.
  Hypothesis Htargets : sized n targets.
  Let cnt : Z := (last - steps o - first + 1)%Z.

  Lemma Hn : (0 <= n)%Z. Proof. unfold cells in Hvars. lia. Qed.
  Lemma cnt_pos : (1 <= cnt)%Z. Proof. unfold cnt, fits in *. lia. Qed.
  Lemma reach_steps : reach o = steps o. Proof. destruct o; reflexivity. Qed.
  Lemma long_enough : too_short o first last = false.
  Proof. unfold fits in Hfits. destruct o; cbn in *; auto; apply Z.ltb_ge; lia. Qed.

  Lemma get_traj_mat x : get_traj x vars = Some (mat (fun i j => nth (f i j) x 0) 0 m n).
  Proof.
    destruct Hvars as (Hr & Hc & _ & _ & _ & Hf). unfold get_traj. rewrite Hr, Hc. apply omap_ok. intros i Hi. apply in_range in Hi.
    apply omap_ok. intros j Hj. apply in_range in Hj. rewrite Hf by lia. reflexivity.
  Qed.
  Lemma diffs_mat x : diffs o vars targets first last x = Ok (mat (deviation o f targets x) first cnt n).
  Proof.
    assert (0 <= steps o)%Z by (destruct o; cbn; lia).
    unfold diffs. rewrite get_traj_mat. unfold fits in Hfits. rewrite row_block_mat by lia. cbn [obind].
    rewrite diff_times_mat by (cbn; lia). cbn [obind]. f_equal. rewrite row_op_mat by auto. rewrite Z.add_0_l.
    unfold cnt. replace (last - first + 1 - steps o)%Z with (last - steps o - first + 1)%Z by lia. reflexivity.
  Qed.

  (** the affine expression of one cell *)
  Definition cell_expr (i j : Z) : aff R :=
    aff_dec_const (fold_left (fun e sc => aff_inc e (var_mult (f (i + fst sc)%Z j) (snd sc))) (stencil o) (aff_const nzero)) (coef targets j).
  Lemma diff_expr_cell i j : (first <= i < first + cnt)%Z -> (0 <= j < n)%Z -> diff_expr o vars targets i j = Some (cell_expr i j).
  Proof.
    intros Hi Hj. destruct Hvars as (_ & _ & _ & _ & _ & Hf). unfold fits, cnt in *. unfold diff_expr, cell_expr.
    destruct o; cbn [stencil fold_left obnd fst snd steps] in *; rewrite ?Hf by lia; cbn [obnd]; rewrite ?Hf by lia; cbn [obnd];
      rewrite ?Hf by lia; cbn [obnd]; rewrite ?Hf by lia; reflexivity.
  Qed.
  Lemma cell_wf i j : wf_aff (cell_expr i j).
  Proof. unfold cell_expr. destruct o; reflexivity. Qed.
  Lemma cell_value x i j : aff_value (cell_expr i j) x = deviation o f targets x i j.
  Proof.
    unfold cell_expr, deviation. rewrite aff_dec_const_value. f_equal.
    destruct o; cbn [stencil fold_left fst snd difference]; unfold var_mult;
      repeat rewrite aff_inc_value by reflexivity; rewrite !aff_scale_value, !aff_var_value, aff_const_value; rnum; rewrite ?Z.add_0_r; ring.
  Qed.
  Lemma cell_in nv i j : (forall i j, (0 <= i < m)%Z -> (0 <= j < n)%Z -> (f i j < nv)%nat) ->
    (first <= i < first + cnt)%Z -> (0 <= j < n)%Z -> aff_in nv (cell_expr i j).
  Proof.
    intros Hf Hi Hj. split; [apply cell_wf|]. unfold cell_expr, fits, cnt in *.
    destruct o; cbn in *; repeat constructor; apply Hf; lia.
  Qed.
  Lemma over_steps_cells {A} (h : Z -> Z -> option A) (g : Z -> Z -> A) :
    (forall i j, (first <= i < first + cnt)%Z -> (0 <= j < n)%Z -> h i j = Some (g i j)) ->
    over_steps o vars first last h = Some (concat (mat g first cnt n)).
  Proof.
    intros H. unfold over_steps. rewrite long_enough, reach_steps. fold cnt. destruct Hvars as (_ & Hc & _). rewrite Hc.
    rewrite (omap_ok _ (fun i => map (g i) (range 0 n))); [reflexivity|].
    intros i Hi. apply in_range in Hi. apply omap_ok. intros j Hj. apply in_range in Hj. apply H; lia.
  Qed.

  Variables coeffs : list R.
  Hypothesis Hcoeffs : sized n coeffs.

  Lemma quad_fold (l : list (quad R)) q x : wf_quad q -> Forall wf_quad l ->
    wf_quad (fold_left quad_inc l q) /\ quad_value (fold_left quad_inc l q) x = quad_value q x + rsum (fun p => quad_value p x) l.
  Proof.
    revert q. induction l as [|p l IH]; intros q Hq Hl; cbn [fold_left].
    - rewrite rsum_nil. split; auto. lra.
    - inversion Hl; subst. destruct (IH (quad_inc q p)) as (W & V); auto. { apply quad_inc_wf; auto. }
      split; auto. rewrite V, rsum_cons, quad_inc_value by auto. ring.
  Qed.
  Lemma quad_fold_in (l : list (quad R)) q nv : quad_in nv q -> Forall (quad_in nv) l -> quad_in nv (fold_left quad_inc l q).
  Proof.
    revert q. induction l as [|p l IH]; intros q Hq Hl; cbn [fold_left]; auto. inversion Hl; subst. apply IH; auto. apply quad_in_inc; auto.
  Qed.

  Lemma eq_cost_spec nv : (forall i j, (0 <= i < m)%Z -> (0 <= j < n)%Z -> (f i j < nv)%nat) ->
    exists q, eq_cost o vars coeffs targets first last = Some q /\ quad_in nv q /\
      forall x, quad_value q x = over_cells o first last n (fun i j => at_joint coeffs j * (deviation o f targets x i j * deviation o f targets x i j)).
  Proof.
    intros Hnv. unfold eq_cost.
    rewrite (over_steps_cells _ (fun i j => quad_scale (aff_square (cell_expr i j)) (coef coeffs j)))
      by (intros; rewrite diff_expr_cell by auto; reflexivity).
    cbn [obnd]. eexists. split; [reflexivity|]. split.
    - apply quad_fold_in.
      + repeat split; constructor.
      + apply Forall_forall. intros q Hq. apply in_concat in Hq. destruct Hq as (r & Hr & Hq). unfold mat in Hr. apply in_map_iff in Hr. destruct Hr as (i & <- & Hi).
        apply in_map_iff in Hq. destruct Hq as (j & <- & Hj). apply in_range in Hi, Hj. apply quad_in_scale, quad_in_square, cell_in; auto; lia.
    - intros x. destruct (quad_fold (concat (mat (fun i j => quad_scale (aff_square (cell_expr i j)) (coef coeffs j)) first cnt n)) (quad_const nzero) x) as (_ & V).
      + repeat split.
      + apply Forall_forall. intros q Hq. apply in_concat in Hq. destruct Hq as (r & Hr & Hq). unfold mat in Hr. apply in_map_iff in Hr. destruct Hr as (i & <- & Hi).
        apply in_map_iff in Hq. destruct Hq as (j & <- & Hj). apply quad_scale_wf, aff_square_wf, cell_wf.
      + rewrite V, quad_const_value, rsum_mat. rnum. rewrite Rplus_0_l. unfold over_cells. fold cnt. apply bigsum_ext. intros k Hk. apply bigsum_ext. intros j Hj.
        rewrite quad_scale_value, aff_square_value, cell_value by apply cell_wf. unfold coef, at_joint. rnum. ring.
  Qed.
  Lemma eq_cost_value_spec x : eq_cost_value o vars coeffs targets first last x =
    Ok (over_cells o first last n (fun i j => at_joint coeffs j * (deviation o f targets x i j * deviation o f targets x i j))).
  Proof.
    unfold eq_cost_value. rewrite diffs_mat. cbn [obind]. f_equal. unfold mat_sum, squares. rewrite vsum_R, mat_map, row_op_mat by auto.
    rewrite Rsum_mat. unfold over_cells. fold cnt. apply bigsum_ext. intros k Hk. apply bigsum_ext. intros j Hj. rnum. ring.
  Qed.

  Lemma eq_exprs_spec : exists es, eq_exprs o vars coeffs targets first last = Some es /\ length es = (Z.to_nat cnt * Z.to_nat n)%nat /\
    forall k j x, (k < Z.to_nat cnt)%nat -> (j < Z.to_nat n)%nat ->
      aff_value (nth (k * Z.to_nat n + j) es (aff_const 0)) x = nth j coeffs 0 * deviation o f targets x (first + Z.of_nat k) (Z.of_nat j).
  Proof.
    unfold eq_exprs. rewrite (over_steps_cells _ (fun i j => aff_scale (cell_expr i j) (coef coeffs j)))
      by (intros; rewrite diff_expr_cell by auto; reflexivity).
    eexists. split; [reflexivity|]. pose proof cnt_pos. pose proof Hn. split.
    - destruct (mat_rows (fun i j => aff_scale (cell_expr i j) (coef coeffs j)) first cnt n) as (L & F); try lia. rewrite (concat_len _ _ F), L. reflexivity.
    - intros k j x Hk Hj. rewrite mat_nth by auto. rewrite aff_scale_value, cell_value. unfold coef. rewrite Nat2Z.id. rnum. ring.
  Qed.
  Lemma eq_cnt_value_spec x : exists vs, eq_cnt_value o vars coeffs targets first last x = Ok vs /\ length vs = (Z.to_nat cnt * Z.to_nat n)%nat /\
    forall k j, (k < Z.to_nat cnt)%nat -> (j < Z.to_nat n)%nat ->
      nth (k * Z.to_nat n + j) vs 0 = nth j coeffs 0 * (deviation o f targets x (first + Z.of_nat k) (Z.of_nat j) * deviation o f targets x (first + Z.of_nat k) (Z.of_nat j)).
  Proof.
    unfold eq_cnt_value. rewrite diffs_mat. cbn [obind]. unfold squares. rewrite mat_map, row_op_mat by auto.
    eexists. split; [reflexivity|]. pose proof cnt_pos. pose proof Hn. split.
    - match goal with |- context [mat ?g _ _ _] => destruct (mat_rows g first cnt n) as (L & F); try lia end. rewrite (concat_len _ _ F), L. reflexivity.
    - intros k j Hk Hj. rewrite mat_nth by auto. unfold at_joint. rewrite Nat2Z.id. rnum. ring.
  Qed.

  Variables ups lows : list R.
  Hypothesis Hups : sized n ups.
  Hypothesis Hlows : sized n lows.
  (** how far a cell is above its upper and below its lower tolerance, weighted *)
  Definition above (x : list R) (i j : Z) : R := at_joint coeffs j * (deviation o f targets x i j - at_joint ups j).
  Definition below (x : list R) (i j : Z) : R := at_joint coeffs j * (at_joint lows j - deviation o f targets x i j).

  Definition cell_pair (i j : Z) : list (aff R) := ineq_pair o (coef coeffs j) (coef ups j) (coef lows j) (cell_expr i j).
  Lemma ineq_pair_value c up low (e : aff R) x : wf_aff e ->
    map (fun a => aff_value a x) (ineq_pair o c up low e) = [c * (aff_value e x - up); c * (low - aff_value e x)].
  Proof.
    intros W. assert (W0 : forall k : R, wf_aff (aff_const k)) by reflexivity.
    assert (W1 : forall k : R, wf_aff (aff_inc_const (aff_const (@nzero R _)) k)) by reflexivity.
    unfold ineq_pair. cbn [map].
    assert (E2 : aff_value (aff_scale (aff_dec (aff_inc_const (aff_const nzero) low) e) c) x = c * (low - aff_value e x)).
    { rewrite aff_scale_value, aff_dec_value, aff_inc_const_value, aff_const_value by auto. rnum. ring. }
    rewrite E2. f_equal. destruct o.
    - rewrite aff_scale_value, aff_dec_const_value, aff_inc_value, aff_const_value by auto. rnum. ring.
    - rewrite aff_scale_value, aff_dec_value, aff_inc_const_value, aff_const_value by auto. rnum. ring.
    - rewrite aff_scale_value, aff_dec_value, aff_inc_const_value, aff_const_value by auto. rnum. ring.
    - rewrite aff_scale_value, aff_dec_value, aff_inc_const_value, aff_const_value by auto. rnum. ring.
  Qed.
  Lemma cell_pair_value x i j : map (fun e => aff_value e x) (cell_pair i j) = [above x i j; below x i j].
  Proof. unfold cell_pair. rewrite ineq_pair_value by apply cell_wf. rewrite cell_value. reflexivity. Qed.
  Lemma cell_pair_in nv i j : (forall i j, (0 <= i < m)%Z -> (0 <= j < n)%Z -> (f i j < nv)%nat) ->
    (first <= i < first + cnt)%Z -> (0 <= j < n)%Z -> Forall (aff_in nv) (cell_pair i j).
  Proof.
    intros Hf Hi Hj. assert (C := cell_in nv i j Hf Hi Hj). unfold cell_pair, ineq_pair.
    assert (C0 : forall k : R, aff_in nv (aff_const k)) by (intros; split; [reflexivity|constructor]).
    assert (C1 : forall (k : R) e, aff_in nv e -> aff_in nv (aff_inc_const e k) /\ aff_in nv (aff_dec_const e k)).
    { intros k e (W & F). split; split; auto. }
    assert (C2 : forall e : aff R, aff_in nv e -> aff_in nv (aff_dec (aff_inc_const (aff_const nzero) (coef lows j)) e) /\ aff_in nv (aff_dec (aff_inc_const (aff_const nzero) (coef ups j)) e)).
    { intros e He. split; apply aff_in_inc; try apply C1; auto; apply aff_in_scale; auto. }
    constructor; [|constructor; [|constructor]].
    - destruct o; apply aff_in_scale; [apply C1, aff_in_inc; auto|apply C2; auto..].
    - apply aff_in_scale, C2; auto.
  Qed.
  Lemma ineq_exprs_cells : ineq_exprs o vars coeffs targets ups lows first last = Some (concat (concat (mat cell_pair first cnt n))).
  Proof.
    unfold ineq_exprs. rewrite (over_steps_cells _ cell_pair) by (intros; rewrite diff_expr_cell by auto; reflexivity). reflexivity.
  Qed.
  Lemma cell_pair_sum x i j : rsum (fun e => Rmax (aff_value e x) 0) (cell_pair i j) = Rmax (above x i j) 0 + Rmax (below x i j) 0.
  Proof.
    rewrite <- (rsum_map (fun v => Rmax v 0) (fun e => aff_value e x)). rewrite cell_pair_value, !rsum_cons, rsum_nil. ring.
  Qed.
  Lemma over_upper_mat x : over_upper (mat (deviation o f targets x) first cnt n) coeffs ups = mat (above x) first cnt n.
  Proof. unfold over_upper. rewrite !row_op_mat by auto. apply mat_ext. intros. unfold above. rnum. ring. Qed.
  Lemma under_lower_mat x : under_lower (mat (deviation o f targets x) first cnt n) coeffs lows = mat (below x) first cnt n.
  Proof. unfold under_lower. rewrite mat_map, !row_op_mat by auto. apply mat_ext. intros. unfold below. rnum. ring. Qed.
  Lemma bigsum_plus' k (g h : nat -> R) : bigsum k (fun i => g i + h i) = bigsum k g + bigsum k h.
  Proof. unfold bigsum. apply rsum_plus. Qed.
  Lemma ineq_cost_value_spec x : ineq_cost_value o vars coeffs targets ups lows first last x =
    Ok (over_cells o first last n (fun i j => Rmax (above x i j) 0 + Rmax (below x i j) 0)).
  Proof.
    unfold ineq_cost_value. rewrite diffs_mat. cbn [obind]. f_equal. rewrite over_upper_mat, under_lower_mat. unfold clip. rewrite !mat_map.
    unfold mat_sum. rewrite !vsum_R, !Rsum_mat. rnum. unfold over_cells. fold cnt. rewrite <- bigsum_plus'. apply bigsum_ext. intros k Hk.
    rewrite <- bigsum_plus'. apply bigsum_ext. intros j Hj. rewrite !nmax_R. reflexivity.
  Qed.
  Lemma ineq_hinges x : rsum (fun e => Rmax (aff_value e x) 0) (concat (concat (mat cell_pair first cnt n))) =
    over_cells o first last n (fun i j => Rmax (above x i j) 0 + Rmax (below x i j) 0).
  Proof.
    rewrite rsum_concat, rsum_mat. unfold over_cells. fold cnt. apply bigsum_ext. intros k Hk. apply bigsum_ext. intros j Hj. apply cell_pair_sum.
  Qed.
  Lemma ineq_cnt_value_mat x : ineq_cnt_value o vars coeffs targets ups lows first last x =
    Ok (concat (map (fun i => map (fun j => match o with Pos => above x i j | _ => Rmax (above x i j) 0 end) (range 0 n) ++
                              map (fun j => match o with Pos => below x i j | _ => Rmax (below x i j) 0 end) (range 0 n)) (range first cnt))).
  Proof.
    unfold ineq_cnt_value. rewrite diffs_mat. cbn [obind]. f_equal. rewrite over_upper_mat, under_lower_mat. unfold mat. rewrite combine_self, map_map. cbn [fst snd].
    assert (E : clip (map (fun x0 => map (above x x0) (range 0 n) ++ map (below x x0) (range 0 n)) (range first cnt)) =
      map (fun i => map (fun j => Rmax (above x i j) 0) (range 0 n) ++ map (fun j => Rmax (below x i j) 0) (range 0 n)) (range first cnt)).
    { unfold clip. rewrite map_map. apply map_ext. intros i. rewrite map_app, !map_map. f_equal; apply map_ext; intros; apply nmax_R. }
    destruct o; rewrite ?E; reflexivity.
  Qed.
End Terms.

(** ** C59 *)
(** the convex objective of an equality cost, minimised over what it adds to the model (nothing), is value(x) *)
Theorem C59_eq_costs : forall (o : order) (vars : array nat) (m n : Z) (f : Z -> Z -> nat) (first last : Z) (coeffs targets : list R)
    (mdl : list (option R * option R)),
  cells vars m n f -> fits o m first last -> sized n coeffs -> sized n targets ->
  (forall i j, (0 <= i < m)%Z -> (0 <= j < n)%Z -> (f i j < length mdl)%nat) ->
  exists q, eq_cost o vars coeffs targets first last = Some q /\
  forall x, length x = length mdl ->
    exists v, eq_cost_value o vars coeffs targets first last x = Ok v /\
      v = over_cells o first last n (fun i j => at_joint coeffs j * (deviation o f targets x i j * deviation o f targets x i j)) /\
      quad_value q x = v /\
      let s := build mdl (eq_cost_convex q) in
      min_over_aux (length (fst s)) (obj_feasible (length mdl) s) (quad_value (co_quad (snd s))) x v.
Proof.
  intros o vars m n f first last coeffs targets mdl Hv Hf Hc Ht Hin.
  destruct (eq_cost_spec o vars m n f first last targets Hv Hf coeffs (length mdl) Hin) as (q & E & Q & V).
  exists q. split; auto. intros x Hx. rewrite (eq_cost_value_spec o vars m n f first last targets Hv Hf Ht coeffs Hc x).
  eexists. split; [reflexivity|]. split; [reflexivity|]. split; [apply V|].
  pose proof (build_min mdl (eq_cost_convex q) x Hx) as B. unfold eq_cost_convex in B. rewrite rsum_cons, rsum_nil, Rplus_0_r in B.
  cbn [op_exact] in B. rewrite V in B. apply B. constructor; [exact Q|constructor].
Qed.
Print Assumptions C59_eq_costs.

(** the hinges of an inequality cost, minimised over the variables they add, are value(x) *)
Theorem C59_ineq_costs : forall (o : order) (vars : array nat) (m n : Z) (f : Z -> Z -> nat) (first last : Z) (coeffs targets ups lows : list R)
    (mdl : list (option R * option R)),
  cells vars m n f -> fits o m first last -> sized n coeffs -> sized n targets -> sized n ups -> sized n lows ->
  (forall i j, (0 <= i < m)%Z -> (0 <= j < n)%Z -> (f i j < length mdl)%nat) ->
  exists es, ineq_exprs o vars coeffs targets ups lows first last = Some es /\
  forall x, length x = length mdl ->
    exists v, ineq_cost_value o vars coeffs targets ups lows first last x = Ok v /\
      v = over_cells o first last n (fun i j =>
            Rmax (at_joint coeffs j * (deviation o f targets x i j - at_joint ups j)) 0 +
            Rmax (at_joint coeffs j * (at_joint lows j - deviation o f targets x i j)) 0) /\
      let s := build mdl (ineq_cost_convex es) in
      min_over_aux (length (fst s)) (obj_feasible (length mdl) s) (quad_value (co_quad (snd s))) x v.
Proof.
  intros o vars m n f first last coeffs targets ups lows mdl Hv Hf Hc Ht Hu Hl Hin.
  eexists. split; [apply (ineq_exprs_cells o vars m n f first last targets Hv Hf coeffs ups lows)|].
  intros x Hx. rewrite (ineq_cost_value_spec o vars m n f first last targets Hv Hf Ht coeffs Hc ups lows Hu Hl x).
  eexists. split; [reflexivity|]. split; [reflexivity|].
  match goal with |- context [ineq_cost_convex ?es] => pose proof (build_min mdl (ineq_cost_convex es) x Hx) as B end.
  unfold ineq_cost_convex in B. rewrite rsum_map in B. cbn [op_exact] in B.
  rewrite <- (ineq_hinges o m n f first last targets Hf coeffs ups lows x).
  rewrite (rsum_ext _ (fun e => Rmax (aff_value e x) 0)) in B by (intros a _; rnum; ring). apply B.
  apply Forall_map, Forall_forall. intros e He. apply in_concat in He. destruct He as (p & Hp & He). apply in_concat in Hp. destruct Hp as (r & Hr & Hp).
    unfold mat in Hr. apply in_map_iff in Hr. destruct Hr as (i & <- & Hi). apply in_map_iff in Hp. destruct Hp as (j & <- & Hj). apply in_range in Hi, Hj.
    cbn [op_ok]. split; [|rnum; lra].
    assert (F := cell_pair_in o m n f first last targets Hf coeffs ups lows (length mdl) i j Hin ltac:(lia) ltac:(lia)).
    rewrite Forall_forall in F. apply F; auto.
Qed.
Print Assumptions C59_ineq_costs.

(** ** C60 *)
(** a linearised equality constraint and value() have the same rows, but value() squares the deviation:
    row (step k, joint j) of the one is coefficient * deviation, of the other coefficient * deviation^2 *)
Theorem C60_partial : forall (o : order) (vars : array nat) (m n : Z) (f : Z -> Z -> nat) (first last : Z) (coeffs targets : list R),
  cells vars m n f -> fits o m first last -> sized n coeffs -> sized n targets ->
  let cnt := Z.to_nat (last - steps o - first + 1) in let w := Z.to_nat n in
  exists es, eq_exprs o vars coeffs targets first last = Some es /\ length (cc_eqs (eq_cnt_convex es)) = (cnt * w)%nat /\
  forall x, exists vs, eq_cnt_value o vars coeffs targets first last x = Ok vs /\ length vs = (cnt * w)%nat /\
  forall k j, (k < cnt)%nat -> (j < w)%nat ->
    let d := deviation o f targets x (first + Z.of_nat k) (Z.of_nat j) in
    let c := nth j coeffs 0 in
    let linear := aff_value (nth (k * w + j) (cc_eqs (eq_cnt_convex es)) (aff_const 0)) x in
    let exact := nth (k * w + j) vs 0 in
    linear = c * d /\ exact = c * (d * d) /\ (exact = 0 <-> linear = 0).
Proof.
  intros o vars m n f first last coeffs targets Hv Hf Hc Ht cnt w.
  destruct (eq_exprs_spec o vars m n f first last targets Hv Hf coeffs) as (es & E & L & V). exists es. split; auto. split; auto.
  intros x. destruct (eq_cnt_value_spec o vars m n f first last targets Hv Hf Ht coeffs Hc x) as (vs & E2 & L2 & V2). exists vs. split; auto. split; auto.
  intros k j Hk Hj. cbn zeta. cbn [eq_cnt_convex cc_eqs]. unfold w in *. rewrite V, V2 by auto. split; auto. split; auto.
  set (c := nth j coeffs 0). set (d := deviation o f targets x (first + Z.of_nat k) (Z.of_nat j)). split; intros H.
  - apply Rmult_integral in H. destruct H as [H|H]; [rewrite H; ring|]. apply Rmult_integral in H. destruct H as [H|H]; rewrite H; ring.
  - rewrite <- Rmult_assoc, H. ring.
Qed.
Print Assumptions C60_partial.

(** a trajectory of 4 steps of 2 joints over the variables 0..7, row by row *)
Definition vars42 : array nat := of_data 4 2 (seq 0 8).
Lemma vars42_cells : cells vars42 4 2 (fun i j => Z.to_nat (2 * i + j)).
Proof.
  unfold cells. split; [reflexivity|]. split; [reflexivity|]. split; [reflexivity|]. split; [lia|]. split; [lia|].
  intros i j Hi Hj. assert (i = 0 \/ i = 1 \/ i = 2 \/ i = 3)%Z as [-> | [-> | [-> | ->]]] by lia; assert (j = 0 \/ j = 1)%Z as [-> | ->] by lia; reflexivity.
Qed.
Example traj_hyps o : fits o 4 0 3 /\ sized 2 [1; 2] /\ (forall i j, (0 <= i < 4)%Z -> (0 <= j < 2)%Z -> (Z.to_nat (2 * i + j) < length (repeat (@None R, @None R) 8))%nat).
Proof. split; [destruct o; unfold fits; cbn; lia|]. split; [reflexivity|]. intros. rewrite repeat_length. lia. Qed.

(** C60: at a point off the target the linearised constraint and value() differ *)
Theorem C60_refuted : exists (vars : array nat) (f : Z -> Z -> nat) (coeffs targets x : list R) es vs,
  cells vars 4 2 f /\ eq_exprs Pos vars coeffs targets 0 3 = Some es /\ eq_cnt_value Pos vars coeffs targets 0 3 x = Ok vs /\
  map (fun e => aff_value e x) (cc_eqs (eq_cnt_convex es)) <> vs.
Proof.
  destruct (C60_partial Pos vars42 4 2 _ 0 3 [1; 1] [0; 0] vars42_cells ltac:(unfold fits; cbn; lia) eq_refl eq_refl) as (es & E & L & V).
  destruct (V [2; 0; 0; 0; 0; 0; 0; 0]) as (vs & E2 & L2 & V2).
  exists vars42, (fun i j => Z.to_nat (2 * i + j)), [1; 1], [0; 0], [2; 0; 0; 0; 0; 0; 0; 0], es, vs.
  split; [apply vars42_cells|]. split; [exact E|]. split; [exact E2|]. intros Heq.
  destruct (V2 0%nat 0%nat) as (A & B & _); [cbn; lia|cbn; lia|]. cbn [Nat.mul Nat.add] in A, B. rewrite <- Heq in B.
  rewrite (nth_indep _ 0 (aff_value (aff_const 0) [2; 0; 0; 0; 0; 0; 0; 0])) in B by (rewrite map_length, L; cbn; lia).
  rewrite (map_nth (fun e => aff_value e [2; 0; 0; 0; 0; 0; 0; 0])) in B. rewrite A in B. unfold deviation, at_joint in B. cbn in B. lra.
Qed.
Print Assumptions C60_refuted.

(** ** C89: inequality constraints *)
(** value() is the upper parts of a step followed by its lower parts, clipped at 0 except for positions; the
    linearised constraint has the two parts of each joint next to each other, unclipped *)
Theorem C89_rows : forall (o : order) (vars : array nat) (m n : Z) (f : Z -> Z -> nat) (first last : Z) (coeffs targets ups lows : list R),
  cells vars m n f -> fits o m first last -> sized n coeffs -> sized n targets -> sized n ups -> sized n lows ->
  let cnt := Z.to_nat (last - steps o - first + 1) in let w := Z.to_nat n in
  exists es, ineq_exprs o vars coeffs targets ups lows first last = Some es /\ length (cc_ineqs (ineq_cnt_convex es)) = (cnt * w * 2)%nat /\
  forall x, exists vs, ineq_cnt_value o vars coeffs targets ups lows first last x = Ok vs /\ length vs = (cnt * (w + w))%nat /\
  forall k j, (k < cnt)%nat -> (j < w)%nat ->
    let d := deviation o f targets x (first + Z.of_nat k) (Z.of_nat j) in
    let hi := nth j coeffs 0 * (d - nth j ups 0) in
    let lo := nth j coeffs 0 * (nth j lows 0 - d) in
    let shown v := match o with Pos => v | _ => Rmax v 0 end in
    aff_value (nth ((k * w + j) * 2) (cc_ineqs (ineq_cnt_convex es)) (aff_const 0)) x = hi /\
    aff_value (nth ((k * w + j) * 2 + 1) (cc_ineqs (ineq_cnt_convex es)) (aff_const 0)) x = lo /\
    nth (k * (w + w) + j) vs 0 = shown hi /\ nth (k * (w + w) + (w + j)) vs 0 = shown lo.
Proof.
  intros o vars m n f first last coeffs targets ups lows Hv Hf Hc Ht Hu Hl cnt w.
  eexists. split; [apply (ineq_exprs_cells o vars m n f first last targets Hv Hf coeffs ups lows)|]. cbn [ineq_cnt_convex cc_ineqs].
  assert (P1 : (0 <= n)%Z) by (unfold cells in Hv; lia). assert (P2 : (0 <= last - steps o - first + 1)%Z) by (unfold fits in Hf; lia).
  set (pairs := concat (mat (cell_pair o f targets coeffs ups lows) first (last - steps o - first + 1) n)).
  assert (F2 : Forall (fun p => length p = 2%nat) pairs).
  { apply Forall_forall. intros p Hp. apply in_concat in Hp. destruct Hp as (r & Hr & Hp). unfold mat in Hr. apply in_map_iff in Hr. destruct Hr as (i & <- & Hi).
    apply in_map_iff in Hp. destruct Hp as (j & <- & Hj). reflexivity. }
  assert (L2 : length pairs = (cnt * w)%nat).
  { unfold pairs. destruct (mat_rows (cell_pair o f targets coeffs ups lows) first (last - steps o - first + 1) n P2 P1) as (L & F).
    rewrite (concat_len _ _ F), L. reflexivity. }
  split; [rewrite (concat_len 2 _ F2), L2; reflexivity|].
  intros x. rewrite (ineq_cnt_value_mat o vars m n f first last targets Hv Hf Ht coeffs Hc ups lows Hu Hl x).
  eexists. split; [reflexivity|].
  match goal with |- context [concat ?r] => set (rows := r) end.
  assert (Fr : Forall (fun r => length r = (w + w)%nat) rows).
  { apply Forall_forall. intros r Hr. unfold rows in Hr. apply in_map_iff in Hr. destruct Hr as (i & <- & Hi). rewrite app_length, !map_length, !range_len by auto. reflexivity. }
  assert (Lr : length rows = cnt) by (unfold rows; rewrite map_length, range_len by auto; reflexivity).
  split; [rewrite (concat_len _ _ Fr), Lr; reflexivity|].
  intros k j Hk Hj. cbn zeta.
  assert (Ep : nth (k * w + j) pairs [] = cell_pair o f targets coeffs ups lows (first + Z.of_nat k) (Z.of_nat j)) by (apply mat_nth; auto).
  assert (Vp : map (fun e => aff_value e x) (cell_pair o f targets coeffs ups lows (first + Z.of_nat k) (Z.of_nat j)) =
    [above o f targets coeffs ups x (first + Z.of_nat k) (Z.of_nat j); below o f targets coeffs lows x (first + Z.of_nat k) (Z.of_nat j)])
    by (eapply cell_pair_value; eauto).
  assert (Hp : (k * w + j < length pairs)%nat) by (rewrite L2; nia).
  unfold above, below, at_joint in Vp. rewrite !Nat2Z.id in Vp.
  set (cp := cell_pair o f targets coeffs ups lows (first + Z.of_nat k) (Z.of_nat j)) in *. clearbody cp.
  destruct cp as [|p1 [|p2 [|]]]; try discriminate Vp. cbn [map] in Vp. injection Vp as V1 V2.
  split; [|split; [|split]].
  - replace ((k * w + j) * 2)%nat with ((k * w + j) * 2 + 0)%nat by lia. rewrite (nth_concat (aff_const 0) 2 pairs) by (auto; lia). rewrite Ep.
    exact V1.
  - rewrite (nth_concat (aff_const 0) 2 pairs) by (auto; lia). rewrite Ep. exact V2.
  - rewrite (nth_concat 0 (w + w) rows) by (auto; lia). unfold rows.
    rewrite (map_nth_in _ _ k 0%Z) by (rewrite range_len; auto). rewrite range_nth by auto.
    rewrite app_nth1 by (rewrite map_length, range_len; auto). rewrite (map_nth_in _ _ j 0%Z) by (rewrite range_len; auto). rewrite range_nth by auto.
    rewrite Z.add_0_l. unfold above, at_joint. rewrite Nat2Z.id. destruct o; reflexivity.
  - rewrite (nth_concat 0 (w + w) rows) by (auto; lia). unfold rows.
    rewrite (map_nth_in _ _ k 0%Z) by (rewrite range_len; auto). rewrite range_nth by auto.
    rewrite app_nth2 by (rewrite map_length, range_len; auto; unfold w; lia). rewrite map_length, range_len by auto. fold w. replace (w + j - w)%nat with j by lia.
    rewrite (map_nth_in _ _ j 0%Z) by (rewrite range_len; auto). rewrite range_nth by auto.
    rewrite Z.add_0_l. unfold below, at_joint. rewrite Nat2Z.id. destruct o; reflexivity.
Qed.
Print Assumptions C89_rows.

(** at every point the violation of the constraint equals that of its linearisation *)
Theorem C89_violation : forall (o : order) (vars : array nat) (m n : Z) (f : Z -> Z -> nat) (first last : Z) (coeffs targets ups lows x : list R),
  cells vars m n f -> fits o m first last -> sized n coeffs -> sized n targets -> sized n ups -> sized n lows ->
  exists es vs, ineq_exprs o vars coeffs targets ups lows first last = Some es /\
    ineq_cnt_value o vars coeffs targets ups lows first last x = Ok vs /\
    cnt_violation INEQ vs = ccnts_violation (ineq_cnt_convex es) x /\
    cnt_violation INEQ vs = over_cells o first last n (fun i j =>
      Rmax (at_joint coeffs j * (deviation o f targets x i j - at_joint ups j)) 0 +
      Rmax (at_joint coeffs j * (at_joint lows j - deviation o f targets x i j)) 0).
Proof.
  intros o vars m n f first last coeffs targets ups lows x Hv Hf Hc Ht Hu Hl.
  eexists. eexists. split; [apply (ineq_exprs_cells o vars m n f first last targets Hv Hf coeffs ups lows)|].
  split; [apply (ineq_cnt_value_mat o vars m n f first last targets Hv Hf Ht coeffs Hc ups lows Hu Hl x)|].
  assert (A : forall v : R, cnt_violation INEQ [v] = Rmax v 0).
  { intros v. unfold cnt_violation, cnt_violations, vsum. cbn [map fold_left]. rewrite pospart_Rmax. rnum. ring. }
  assert (S1 : forall vs : list R, cnt_violation INEQ vs = rsum (fun v => Rmax v 0) vs).
  { intros vs. unfold cnt_violation, cnt_violations. rewrite vsum_R. unfold rsum. f_equal. apply map_ext. intros. apply pospart_Rmax. }
  assert (S2 : forall es : list (aff R), ccnts_violation (ineq_cnt_convex es) x = rsum (fun e => Rmax (aff_value e x) 0) es).
  { intros es. unfold ccnts_violation, ccnts_violations, ineq_cnt_convex. cbn [cc_eqs cc_ineqs map app]. rewrite vsum_R. unfold rsum. f_equal. apply map_ext. intros. apply pospart_Rmax. }
  rewrite S1, S2, (ineq_hinges o m n f first last targets Hf coeffs ups lows x).
  match goal with |- ?v = ?w /\ _ => assert (G : v = w); [|split; [exact G|rewrite G; reflexivity]] end.
  rewrite rsum_concat, rsum_map, rsum_range. unfold over_cells. apply bigsum_ext. intros k Hk.
  rewrite rsum_app, !rsum_map, !rsum_range, <- bigsum_plus'. apply bigsum_ext. intros j Hj. rewrite Z.add_0_l.
  destruct o; f_equal; try reflexivity; apply Rmax_left, Rmax_r.
Qed.
Print Assumptions C89_violation.

(** but row r of value() is not row r of the linearisation as soon as there are two joints *)
Theorem C89_order_refuted : exists (vars : array nat) (f : Z -> Z -> nat) (coeffs targets ups lows x : list R) es vs,
  cells vars 4 2 f /\ ineq_exprs Pos vars coeffs targets ups lows 0 3 = Some es /\ ineq_cnt_value Pos vars coeffs targets ups lows 0 3 x = Ok vs /\
  map (fun e => aff_value e x) (cc_ineqs (ineq_cnt_convex es)) <> vs.
Proof.
  destruct (C89_rows Pos vars42 4 2 _ 0 3 [1; 1] [0; 0] [1; 1] [0; 0] vars42_cells ltac:(unfold fits; cbn; lia) eq_refl eq_refl eq_refl eq_refl) as (es & E & L & V).
  destruct (V []) as (vs & E2 & L2 & V2).
  exists vars42, (fun i j => Z.to_nat (2 * i + j)), [1; 1], [0; 0], [1; 1], [0; 0], [], es, vs.
  split; [apply vars42_cells|]. split; [exact E|]. split; [exact E2|]. intros Heq.
  destruct (V2 0%nat 0%nat) as (_ & A & _ & _); [cbn; lia|cbn; lia|]. destruct (V2 0%nat 1%nat) as (_ & _ & B & _); [cbn; lia|cbn; lia|].
  cbn [Nat.mul Nat.add] in A, B. rewrite <- Heq in B.
  rewrite (nth_indep _ 0 (aff_value (aff_const 0) [])) in B by (rewrite map_length, L; cbn; lia).
  rewrite (map_nth (fun e => aff_value e [])) in B. rewrite A in B. unfold deviation, at_joint, difference in B.
  change (Z.to_nat (Z.of_nat 0)) with 0%nat in B. change (Z.to_nat (Z.of_nat 1)) with 1%nat in B. rewrite !nth_overflow with (l := @nil R) in B by (cbn; lia). cbn in B. lra.
Qed.
Print Assumptions C89_order_refuted.

Require Import QArith.
Local Open Scope Q_scope.
Definition exq : list Q := [0; 10; 1; 10; 4; 10; 9; 12].
Example C59_ex :
  map (fun o => eq_cost_value o vars42 [1; 2] [1; 0] 0 3 exq) [Vel; Acc; Jerk] = [Ok 28; Ok 10; Ok 9] /\
  (match eq_cost Acc vars42 [1; 2] [1; 0] 0 3 with Some q => quad_value q exq | None => 0 end) = 10 /\
  ineq_cost_value Vel vars42 [1; 2] [1; 0] [1; 1] [-(1); -(1)] 0 3 exq = Ok 6 /\
  eq_cost Jerk vars42 [1; 2] [1; 0] 1 3 = None.
Proof. vm_compute. repeat split. Qed.
