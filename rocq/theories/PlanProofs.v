(** * Lemmas about ConstructProblem for joint space problems *)
From Coq Require Import List ZArith Bool Arith Reals Lra Lia Permutation.
From Verif Require Import Num NumFacts RSums Common BackendModel SolveModel SolveSpec ScoExprModel ScoExprProofs ModelingModel ModelingSpec ModelingProofs ArrayModel ArrayProps TrajCostModel ScoOptModel MeritModel MeritSpec RunModel RunSpec TrajCostProps TrajoptModel LayoutProps HatchProps ConstructProps PlanModel PlanSpec.
Import ListNotations.
Local Open Scope R_scope.

Lemma const_value (a : aff R) : aff_value a [] = a_const a.
Proof.
  rewrite aff_value_sum. assert (E : rsum (fun p : R * nat => fst p * nth (snd p) [] 0) (combine (a_coeffs a) (a_vars a)) = 0); [|lra].
  induction (combine (a_coeffs a) (a_vars a)) as [|p l IH]; [apply rsum_nil|]. rewrite rsum_cons, IH. destruct (snd p); cbn; lra.
Qed.
Lemma small_of inf (a : aff R) v : aff_value a [] = v -> Rabs v < inf -> small inf a.
Proof. intros <-. rewrite const_value. unfold small. intros H. apply Rabs_def2 in H. lra. Qed.
Lemma dev_nil o f targets i j : deviation o f targets [] i j = - at_joint targets j.
Proof. unfold deviation, difference. assert (N : forall k, nth k (@nil R) 0 = 0) by (intros []; reflexivity). destruct o; rewrite !N; lra. Qed.
Lemma bigsum_eq0 n (h : nat -> R) : (forall k, (k < n)%nat -> 0 <= h k) -> bigsum n h = 0 -> forall k, (k < n)%nat -> h k = 0.
Proof.
  intros Hn E k Hk. unfold bigsum in E. assert (In k (seq 0 n)) as Hi by (apply in_seq; lia). assert (Hn' : forall k, In k (seq 0 n) -> 0 <= h k) by (intros q Hq; apply Hn; apply in_seq in Hq; lia).
  clear Hn Hk. induction (seq 0 n) as [|q l IH]; [destruct Hi|]. rewrite rsum_cons in E. pose proof (Hn' q (or_introl eq_refl)). assert (0 <= rsum h l) by (apply rsum_nonneg; intros r Hr; apply Hn'; right; exact Hr).
  destruct Hi as [->|Hi]; [lra|]. apply IH; [lra|exact Hi|]. intros r Hr. apply Hn'. right. exact Hr.
Qed.
Lemma bigsum_bound n (h : nat -> R) k : (forall k, (k < n)%nat -> 0 <= h k) -> (k < n)%nat -> h k <= bigsum n h.
Proof.
  intros Hn Hk. unfold bigsum. assert (In k (seq 0 n)) as Hi by (apply in_seq; lia). assert (Hn' : forall k, In k (seq 0 n) -> 0 <= h k) by (intros q Hq; apply Hn; apply in_seq in Hq; lia).
  clear Hn Hk. induction (seq 0 n) as [|q l IH]; [destruct Hi|]. rewrite rsum_cons. assert (0 <= rsum h l) by (apply rsum_nonneg; intros r Hr; apply Hn'; right; exact Hr).
  destruct Hi as [->|Hi]; [lra|]. pose proof (Hn' q (or_introl eq_refl)). specialize (IH Hi ltac:(intros r Hr; apply Hn'; right; exact Hr)). lra.
Qed.

Definition convex_viol (x : list R) (c : ccnts R) : R := rsum (fun a => Rabs (aff_value a x)) (cc_eqs c) + rsum (fun a => Rmax (aff_value a x) 0) (cc_ineqs c).
(** ** One term *)
Section OneTerm.
  Context (inf : R) (m : Z) (d : nat) (t : order * jterm R) (ty : Z) (f : Z -> Z -> nat) (nv : nat).
  Hypothesis Ok_ : term_ok m d t inf ty.
  Hypothesis Hd : (1 <= d)%nat.
  Hypothesis Hf : forall i j, (0 <= i < m)%Z -> (0 <= j < Z.of_nat d)%Z -> (f i j < nv)%nat.
  Local Notation o := (fst t).
  Local Notation co := (per_joint d 1 (jt_coeffs (snd t))).
  Local Notation ta := (per_joint d 0 (jt_targets (snd t))).
  Local Notation up := (per_joint d 0 (jt_uppers (snd t))).
  Local Notation lo := (per_joint d 0 (jt_lowers (snd t))).
  Local Notation X x := (fun i j => nth (f i j) x 0).
  Local Notation first := (first_step m t).
  Local Notation last := (last_step m t).
  (** the object it adds *)
  Definition object (s : side) (a : added R) : Prop := exists jv e, a = AddJoint s e o jv co ta up lo first last /\ cells jv m (Z.of_nat d) f /\ (e = true <-> is_exact d t).

  Lemma term_sizes : sized (Z.of_nat d) co /\ sized (Z.of_nat d) ta /\ sized (Z.of_nat d) up /\ sized (Z.of_nat d) lo /\ fits o m first last.
  Proof.
    destruct Ok_ as (Hm & H0 & Hc & (Sc & St & Su & Sl) & _). assert (L : forall d0 l, size_ok d l -> sized (Z.of_nat d) (per_joint d d0 l)) by (intros d0 l S0; unfold sized; rewrite (per_joint_length d d0 l S0); reflexivity).
    assert (St' : size_ok d (jt_targets (snd t))) by (unfold size_ok; tauto). split; [apply L, Sc|]. split; [apply L, St'|]. split; [apply L, Su|]. split; [apply L, Sl|]. apply (hatch_common o (snd t) m Hm H0 Hc).
  Qed.
  Lemma hatched s vars n : cells vars m n f -> (Z.of_nat d <= n)%Z -> (s = SideCost /\ ty = TT_COST \/ s = SideCnt /\ ty = TT_CNT) -> exists a, hatch_joint o (snd t) d vars = Done [a] /\ object s a.
  Proof.
    intros Hv Hn Hs. destruct Ok_ as (Hm & H0 & Hc & Hp & Ht & _). destruct (C94_adds o (snd t) d vars m n f Hv Hd Hn Hm H0 Hc Hp s) as (jv & e & E & Cj & He); [rewrite Ht; tauto|].
    eexists. split; [exact E|]. exists jv, e. auto.
  Qed.
  Lemma dev_of x i j : deviation o f ta x i j = dev d t (X x) i j. Proof. reflexivity. Qed.
  Lemma range_in i j : in_term m d t i j -> (first <= i < first + (last - steps o - first + 1))%Z /\ (0 <= j < Z.of_nat d)%Z.
  Proof. unfold in_term. lia. Qed.

  Lemma cell_small (e : aff R) (i j : Z) c : (0 <= j < Z.of_nat d)%Z -> c = at_joint co j -> aff_value e [] = c * (- at_joint ta j) \/ aff_value e [] = c * (- at_joint ta j - at_joint up j) \/ aff_value e [] = c * (at_joint lo j - - at_joint ta j) -> small inf e.
  Proof.
    intros Hj -> H. destruct Ok_ as (_ & _ & _ & _ & _ & Hb). specialize (Hb j Hj). unfold coeff, target, upper, lower in Hb. destruct Hb as (B1 & B2 & B3).
    destruct H as [H|[H|H]]; apply (small_of _ _ _ H).
    - rewrite <- Rabs_Ropp. replace (- (at_joint co j * - at_joint ta j)) with (at_joint co j * at_joint ta j) by ring. exact B1.
    - rewrite <- Rabs_Ropp. replace (- (at_joint co j * (- at_joint ta j - at_joint up j))) with (at_joint co j * (at_joint ta j + at_joint up j)) by ring. exact B2.
    - replace (at_joint co j * (at_joint lo j - - at_joint ta j)) with (at_joint co j * (at_joint ta j + at_joint lo j)) by ring. exact B3.
  Qed.
  Lemma pairs_in jv : cells jv m (Z.of_nat d) f -> forall e, In e (concat (concat (TrajCostProps.mat (cell_pair o f ta co up lo) first (last - steps o - first + 1) (Z.of_nat d)))) -> aff_in nv e /\ small inf e.
  Proof.
    intros Cj e He. destruct term_sizes as (Sc & St & Su & Sl & Fi). apply in_concat in He. destruct He as (r & Hr & He). apply in_concat in Hr. destruct Hr as (r' & Hr' & Hr). unfold TrajCostProps.mat in Hr'.
    apply in_map_iff in Hr'. destruct Hr' as (i & <- & Hi). apply in_map_iff in Hr. destruct Hr as (j & <- & Hj). apply in_range in Hi, Hj. split.
    - pose proof (cell_pair_in o m (Z.of_nat d) f first last ta Fi co up lo nv i j Hf Hi ltac:(lia)) as K. rewrite Forall_forall in K. exact (K e He).
    - pose proof (cell_pair_value o m f first last ta Fi co up lo [] i j) as V. unfold above, below in V. rewrite dev_nil in V.
      unfold cell_pair, ineq_pair in He, V. cbn [map] in V. injection V as V1 V2. destruct He as [<-|[<-|[]]].
      + apply (cell_small _ i j _ ltac:(lia) eq_refl). right. left. exact V1.
      + apply (cell_small _ i j _ ltac:(lia) eq_refl). right. right. exact V2.
  Qed.

  Lemma cost_facts a x : object SideCost a -> exists v, cost_value a x = Ok v /\ term_cost m d t (X x) v /\ rsum (op_exact x) (cost_convex a) = v /\
    Forall (fun o => op_ok nv o /\ op_small inf o) (cost_convex a).
  Proof.
    intros (jv & e & -> & Cj & He). destruct term_sizes as (Sc & St & Su & Sl & Fi). destruct e; cbn [cost_value cost_convex].
    - eexists. split; [apply (eq_cost_value_spec o jv m (Z.of_nat d) f first last ta Cj Fi St co Sc)|].
      destruct (eq_cost_spec o jv m (Z.of_nat d) f first last ta Cj Fi co nv Hf) as (q & Eq & Qi & Qv). rewrite Eq. cbn [or_else]. unfold eq_cost_convex. split; [|split].
      + split; [intros _; reflexivity|]. intros N. exfalso. apply N, He. reflexivity.
      + rewrite rsum_cons, rsum_nil. cbn [op_exact]. rewrite Qv. lra.
      + constructor; [|constructor]. split; [exact Qi|exact I].
    - eexists. split; [apply (ineq_cost_value_spec o jv m (Z.of_nat d) f first last ta Cj Fi St co Sc up lo Su Sl)|].
      rewrite (ineq_exprs_cells o jv m (Z.of_nat d) f first last ta Cj Fi co up lo). cbn [or_else]. unfold ineq_cost_convex. split; [|split].
      + split; [intros N; apply He in N; discriminate|]. intros _. reflexivity.
      + rewrite rsum_map. cbn [op_exact]. rewrite <- (ineq_hinges o m (Z.of_nat d) f first last ta Fi co up lo x). apply rsum_ext. intros e He'. rnum. lra.
      + apply Forall_forall. intros o' Ho. apply in_map_iff in Ho. destruct Ho as (e & <- & Ho). destruct (pairs_in jv Cj e Ho) as [A B]. cbn [op_ok op_small]. split; [split; [exact A|rnum; lra]|exact B].
  Qed.
  Lemma cnt_facts a x : object SideCnt a -> exists v, cnt_viol a x = Ok v /\ term_viol m d t (X x) v /\
    Forall (fun e => aff_in nv e /\ small inf e) (cc_eqs (cnt_convex a) ++ cc_ineqs (cnt_convex a)) /\
    (~ is_exact d t -> convex_viol x (cnt_convex a) = v) /\
    (is_exact d t -> convex_viol x (cnt_convex a) = over_term m d t (fun i j => Rabs (coeff d t j * dev d t (X x) i j))) /\
    (is_cnt true a = true <-> is_exact d t) /\ is_cnt false a = negb (is_cnt true a).
  Proof.
    intros (jv & e & -> & Cj & He). destruct term_sizes as (Sc & St & Su & Sl & Fi). pose proof Fi as Fi'. unfold fits in Fi'. destruct e; unfold cnt_viol; cbn [cnt_value cnt_convex is_cnt Bool.eqb].
    - unfold eq_cnt_value. rewrite (diffs_mat o jv m (Z.of_nat d) f first last ta Cj Fi St). cbn [obind]. eexists. split; [reflexivity|]. split; [split|split; [|split]].
      + intros _. unfold squares. rewrite mat_map, row_op_mat by exact Sc. unfold cnt_violation, cnt_violations. rewrite vsum_R.
        etransitivity; [apply (rsum_mat (fun a : R => nabs a))|]. unfold over_term, over_cells. apply bigsum_ext. intros k Hk. apply bigsum_ext. intros j Hj. rnum. f_equal. unfold coeff, dev, target. unfold deviation. ring.
      + intros N. exfalso. apply N, He. reflexivity.
      + unfold eq_exprs. rewrite (over_steps_cells o jv m (Z.of_nat d) f first last Cj Fi _ (fun i j => aff_scale (cell_expr o f ta i j) (coef co j))) by (intros; rewrite (diff_expr_cell o jv m (Z.of_nat d) f first last ta Cj Fi) by auto; reflexivity).
        cbn [or_else cc_eqs cc_ineqs eq_cnt_convex]. rewrite app_nil_r. apply Forall_forall. intros e0 H0. apply in_concat in H0. destruct H0 as (r & Hr & H0). unfold TrajCostProps.mat in Hr. apply in_map_iff in Hr. destruct Hr as (i & <- & Hi).
        apply in_map_iff in H0. destruct H0 as (j & <- & Hj). apply in_range in Hi, Hj. split.
        * apply aff_in_scale. apply (cell_in o m (Z.of_nat d) f first last ta Fi nv i j Hf); lia.
        * apply (cell_small _ i j (at_joint co j)); [lia|reflexivity|]. left. rewrite aff_scale_value, (cell_value o m f first last ta Fi), dev_nil. unfold coef, at_joint. rnum. ring.
      + intros N. exfalso. apply N, He. reflexivity.
      + split; [|split; [rewrite <- He; tauto|reflexivity]]. intros _. unfold eq_exprs. rewrite (over_steps_cells o jv m (Z.of_nat d) f first last Cj Fi _ (fun i j => aff_scale (cell_expr o f ta i j) (coef co j))) by (intros; rewrite (diff_expr_cell o jv m (Z.of_nat d) f first last ta Cj Fi) by auto; reflexivity).
        unfold convex_viol. cbn [or_else cc_eqs cc_ineqs eq_cnt_convex]. rewrite rsum_nil, Rplus_0_r, rsum_mat. unfold over_term, over_cells. apply bigsum_ext. intros k Hk. apply bigsum_ext. intros j Hj.
        rewrite aff_scale_value, (cell_value o m f first last ta Fi). unfold coef, coeff, at_joint. rnum. f_equal. rewrite Rmult_comm. reflexivity.
    - rewrite (ineq_cnt_value_mat o jv m (Z.of_nat d) f first last ta Cj Fi St co Sc up lo Su Sl x). cbn [obind]. eexists. split; [reflexivity|].
      destruct (C89_violation o jv m (Z.of_nat d) f first last co ta up lo x Cj Fi Sc St Su Sl) as (es & vs & Es & Ev & V1 & V2).
      rewrite (ineq_cnt_value_mat o jv m (Z.of_nat d) f first last ta Cj Fi St co Sc up lo Su Sl x) in Ev. injection Ev as <-. rewrite V2.
      split; [split; [intros N; apply He in N; discriminate|intros _; reflexivity]|]. rewrite (ineq_exprs_cells o jv m (Z.of_nat d) f first last ta Cj Fi co up lo). cbn [or_else cc_eqs cc_ineqs ineq_cnt_convex app]. split; [|split].
      + apply Forall_forall. intros e He'. apply (pairs_in jv Cj e He').
      + intros _. unfold convex_viol. cbn [cc_eqs cc_ineqs ineq_cnt_convex]. rewrite rsum_nil, Rplus_0_l. apply (ineq_hinges o m (Z.of_nat d) f first last ta Fi co up lo x).
      + split; [intros N; apply He in N; discriminate|]. split; [rewrite <- He; split; discriminate|reflexivity].
  Qed.
End OneTerm.

(** ** The initial trajectory *)
Lemma forall_nth (P : R -> Prop) l k : Forall P l -> P 0 -> P (nth k l 0).
Proof. intros F0 H. destruct (Nat.lt_ge_cases k (length l)) as [L|L]; [rewrite Forall_forall in F0; apply F0, nth_In, L|rewrite nth_overflow by lia; exact H]. Qed.
Section Start.
  Context (inf : R) (p : plan).
  Hypothesis OK : plan_ok p inf.
  Local Notation m := (pl_steps p).
  Local Notation d := (dofs p).
  Definition start_ok (tr : TrajoptModel.mat R) : Prop :=
    Z.of_nat (length (m_rows tr)) = m /\ m_cols tr = d /\ Forall (fun r => length r = d) (m_rows tr) /\
    forall i j, (0 <= i < m)%Z -> (0 <= j < Z.of_nat d)%Z -> entry tr i j = initial p i j.
  Lemma check_done (tr : TrajoptModel.mat R) : check_init tr m d false = Done tr -> Z.of_nat (length (m_rows tr)) = m /\ m_cols tr = d.
  Proof.
    unfold check_init. rewrite Nat.add_0_r. destruct (Z.eqb_spec (Z.of_nat (length (m_rows tr))) m) as [E|E]; [|discriminate]. destruct (Nat.eqb_spec (m_cols tr) d) as [E'|E']; [|discriminate]. auto.
  Qed.
  Lemma goal_eq goal : length goal = d ->
    m_rows (pl_data p) = [goal] /\ m_cols (pl_data p) = d \/ m_rows (pl_data p) = map (fun g => [g]) goal /\ m_cols (pl_data p) = 1%nat -> goal_of p = goal.
  Proof.
    intros Lg [[Er Ec]|[Er Ec]]; unfold goal_of; rewrite Er, Ec.
    - rewrite !Nat.eqb_refl. reflexivity.
    - rewrite map_length, Lg. destruct (Nat.eqb_spec d 1) as [E|E]; cbn [andb].
      + rewrite E. cbn [Nat.eqb]. destruct goal as [|g [|g' l]]; cbn in Lg; try lia. reflexivity.
      + rewrite map_map. cbn [nth]. apply map_id.
  Qed.
  Lemma start_done : exists tr, init_traj (pl_init p) (pl_now p) (pl_data p) m false 0 = Done tr /\ check_init tr m d false = Done tr /\ start_ok tr.
  Proof.
    destruct OK as (Hi & Hm & Hd & _ & Ln & _ & _ & In0 & _). assert (Em : m = Z.of_nat (Z.to_nat m)) by lia. set (n := Z.to_nat m) in *.
    unfold init_ok in In0. destruct (pl_init p) eqn:Ek.
    - destruct (C92_others (pl_now p) (pl_data p) n false 0) as ((t & E1 & E2 & E3) & _). rewrite Ln in E2. rewrite <- Em in E1, E2. exists t. split; [exact E1|]. split; [exact E2|].
      destruct (check_done t E2) as [L1 L2]. split; [exact L1|]. split; [exact L2|]. rewrite E3, app_nil_r. split; [apply Forall_forall; intros r Hr; apply repeat_spec in Hr as ->; exact Ln|].
      intros i j Hi' Hj'. unfold entry, initial. rewrite Ek, E3, app_nil_r. unfold at_joint. f_equal. apply nth_repeat_lt || (rewrite (nth_indep _ [] (pl_now p)) by (rewrite repeat_length; lia); apply nth_repeat).
    - destruct In0 as (H2 & goal & Lg & Hg). destruct (C92_interpolated (pl_now p) goal (pl_data p) n false 0) as (t & E1 & E2 & E3 & E4); [congruence|lia|rewrite Ln; exact Hg|].
      rewrite Ln in E2, E4. rewrite <- Em in E1, E2. exists t. split; [exact E1|]. split; [exact E2|]. destruct (check_done t E2) as [L1 L2]. split; [exact L1|]. split; [exact L2|]. split.
      + apply Forall_forall. intros r Hr. destruct (In_nth _ _ [] Hr) as (i & Hi' & <-). destruct (E4 i 0%nat ltac:(lia) ltac:(lia)) as (_ & _ & ->). lia.
      + intros i j Hi' Hj'. unfold entry, initial. rewrite Ek, (goal_eq goal Lg Hg). destruct (E4 (Z.to_nat i) (Z.to_nat j) ltac:(lia) ltac:(lia)) as (-> & _). unfold at_joint. rewrite !INR_IZR_INZ. rewrite Z2Nat.id by lia. replace (Z.of_nat (n - 1)) with (m - 1)%Z by lia. reflexivity.
    - destruct In0 as (H1 & H2 & H3). destruct (C92_others (pl_now p) (pl_data p) n false 0) as (_ & t & E1 & E2 & E3). rewrite Ln in E3. replace (length (m_rows (pl_data p))) with n in E3 by lia. rewrite H2, !Nat.eqb_refl in E3. cbn [andb] in E3.
      rewrite <- Em in E1, E3. exists t. split; [exact E1|]. split; [exact E3|]. destruct (check_done t E3) as [L1 L2]. split; [exact L1|]. split; [exact L2|].
      assert (Er : m_rows t = m_rows (pl_data p)) by (rewrite E2; rewrite <- (map_id (m_rows (pl_data p))) at 2; apply map_ext; intros r; apply app_nil_r).
      rewrite Er. split; [exact H3|]. intros i j _ _. unfold entry, initial. rewrite Ek, Er. reflexivity.
  Qed.
  Lemma initial_small i j : (0 <= i < m)%Z -> (0 <= j < Z.of_nat d)%Z -> Rabs (initial p i j) < inf.
  Proof.
    intros Hi Hj. destruct OK as (Hf & Hm & Hd & _ & Ln & Fn & Fd & In0 & _). unfold initial, init_ok in *. assert (Z0 : Rabs 0 < inf) by (rewrite Rabs_R0; exact Hf). destruct (pl_init p).
    - apply (forall_nth (fun v => Rabs v < inf)); [exact Fn|exact Z0].
    - destruct In0 as (H2 & goal & Lg & Hg). rewrite (goal_eq goal Lg Hg). unfold at_joint. pose proof (forall_nth (fun v => Rabs v < inf) (pl_now p) (Z.to_nat j) Fn Z0) as A. cbn beta in A.
      assert (Fg : Forall (fun v => Rabs v < inf) goal).
      { destruct Hg as [[Er _]|[Er _]]; rewrite Er in Fd; [cbn in Fd; rewrite app_nil_r in Fd; exact Fd|]. clear - Fd. induction goal as [|g l IH]; [constructor|]. cbn in Fd. apply Forall_cons_iff in Fd as [A B]. constructor; [exact A|apply IH, B]. }
      pose proof (forall_nth (fun v => Rabs v < inf) goal (Z.to_nat j) Fg Z0) as B. cbn beta in B. set (a := nth _ _ _) in *. set (b := nth _ goal _) in *.
      set (k := IZR i / IZR (m - 1)). assert (Hk : 0 <= k <= 1).
      { assert (0 < IZR (m - 1)) by (apply IZR_lt; lia). assert (0 <= IZR i) by (apply IZR_le; lia). assert (IZR i <= IZR (m - 1)) by (apply IZR_le; lia). unfold k. split; [apply Rmult_le_pos; [lra|left; apply Rinv_0_lt_compat; lra]|].
        apply Rmult_le_reg_r with (IZR (m - 1)); [lra|]. unfold Rdiv. rewrite Rmult_assoc, Rinv_l by lra. lra. }
      assert (Hb : Rmin a b <= a + k * (b - a) <= Rmax a b) by (unfold Rmin, Rmax; destruct (Rle_dec a b); split; nra).
      clearbody k a b. apply Rabs_def2 in A, B. unfold Rmin, Rmax in Hb. apply Rabs_def1; destruct (Rle_dec a b); lra.
    - destruct In0 as (H1 & H2 & H3). set (r := nth (Z.to_nat i) (m_rows (pl_data p)) []). destruct (Nat.lt_ge_cases (Z.to_nat j) (length r)) as [L|L]; [|rewrite nth_overflow by lia; exact Z0].
      rewrite Forall_forall in Fd. apply Fd. apply in_concat. exists r. split; [apply nth_In; lia|apply nth_In, L].
  Qed.
  Lemma traj_vec_facts tr : start_ok tr -> length (traj_vec tr) = (Z.to_nat m * d)%nat /\ forall i j, (0 <= i < m)%Z -> (0 <= j < Z.of_nat d)%Z -> traj_of p (traj_vec tr) i j = initial p i j.
  Proof.
    intros (L1 & L2 & L3 & L4). unfold traj_vec. split; [rewrite (concat_len d _ L3); f_equal; lia|]. intros i j Hi Hj. unfold traj_of.
    replace (Z.to_nat (i * Z.of_nat d + j)) with (Z.to_nat i * d + Z.to_nat j)%nat by (rewrite Z2Nat.inj_add, Z2Nat.inj_mul, Nat2Z.id by nia; reflexivity).
    rewrite (nth_concat 0 d) by (auto; lia). rewrite <- L4 by assumption. reflexivity.
  Qed.
End Start.

(** ** Fixed steps and joints *)
Lemma fixed_done rtl vars (m : Z) (d nv : nat) f (tr : TrajoptModel.mat R) steps dofs : cells vars m (Z.of_nat d) f -> sized_mat tr m (Z.of_nat d) ->
  (forall t, In t steps -> 0 <= t < m)%Z -> (forall j, In j dofs -> 0 <= j < Z.of_nat d)%Z -> (forall i j, (0 <= i < m)%Z -> (0 <= j < Z.of_nat d)%Z -> (f i j < nv)%nat) ->
  exists l, fix_all rtl vars tr d false steps dofs = Done l /\
    (forall e, In e l -> aff_in nv e /\ exists i j, ((0 <= i < m)%Z /\ (0 <= j < Z.of_nat d)%Z /\ (In i steps \/ In j dofs)) /\ forall x, aff_value e x = nth (f i j) x 0 - entry tr i j) /\
    forall i j, (0 <= i < m)%Z -> (0 <= j < Z.of_nat d)%Z -> In i steps \/ In j dofs -> exists e, In e l /\ forall x, aff_value e x = nth (f i j) x 0 - entry tr i j.
Proof.
  intros Hc Hm Hs Hd Hf. unfold fix_all, fix_steps, fix_dofs.
  pose (eqn := fun i j => aff_dec_const (aff_var (f i j)) (entry tr i j)). pose (eqn' := fun i j => aff_dec (aff_var (f i j)) (aff_const (entry tr i j))).
  pose (free := filter (fun i => negb (mem steps i)) (range 0 m)).
  rewrite (rmap_map _ (fun t => map (eqn t) (range 0 (Z.of_nat d)))).
  2:{ intros t Ht. specialize (Hs t Ht). destruct Hm as (Hr & Hcol). rewrite Hr. destruct (Z.ltb_spec m t); [lia|].
      replace (m_cols tr =? d + 0)%nat with true by (symmetry; apply Nat.eqb_eq; lia). cbn [negb].
      apply rmap_map. intros j Hj. apply in_range in Hj. rewrite (operands_ok rtl vars m (Z.of_nat d) f tr t j Hc (conj Hr Hcol)) by lia. reflexivity. }
  cbn [rdo].
  rewrite (rmap_map _ (fun j => map (fun i => eqn' i j) free)).
  2:{ intros j Hj. specialize (Hd j Hj). destruct (Z.ltb_spec (Z.of_nat d) j); [lia|]. rewrite (proj1 Hc). apply rmap_map. intros i Hi.
      apply filter_In in Hi. destruct Hi as (Hi & _). apply in_range in Hi. rewrite (operands_ok rtl vars m (Z.of_nat d) f tr i j Hc Hm) by lia. reflexivity. }
  cbn [rdo]. eexists. split; [reflexivity|].
  assert (V : forall i j x, aff_value (eqn i j) x = nth (f i j) x 0 - entry tr i j) by (intros i j x; unfold eqn; rewrite aff_dec_const_value, aff_var_value; reflexivity).
  assert (V' : forall i j x, aff_value (eqn' i j) x = nth (f i j) x 0 - entry tr i j) by (intros i j x; unfold eqn'; rewrite aff_dec_value, aff_var_value, aff_const_value by reflexivity; reflexivity).
  assert (A : forall i j, (f i j < nv)%nat -> aff_in nv (eqn i j) /\ aff_in nv (eqn' i j)).
  { intros i j H. split; (split; [reflexivity|constructor; [exact H|constructor]]). }
  split.
  - intros e He. apply in_app_iff in He. destruct He as [He|He]; apply in_concat in He; destruct He as (r & Hr & He); apply in_map_iff in Hr; destruct Hr as (k & <- & Hk); apply in_map_iff in He; destruct He as (q & <- & Hq).
    + apply in_range in Hq. pose proof (Hs k Hk). split; [apply (A k q), Hf; lia|]. exists k, q. split; [split; [lia|]; split; [lia|left; exact Hk]|apply V].
    + apply filter_In in Hq. destruct Hq as (Hq & _). apply in_range in Hq. pose proof (Hd k Hk). split; [apply (A q k), Hf; lia|]. exists q, k. split; [split; [lia|]; split; [lia|right; exact Hk]|apply V'].
  - assert (Ha : forall i j, In i steps -> (0 <= j < Z.of_nat d)%Z -> In (eqn i j) (concat (map (fun t => map (eqn t) (range 0 (Z.of_nat d))) steps))).
    { intros i j Hi Hj. apply in_concat. exists (map (eqn i) (range 0 (Z.of_nat d))). split; [apply (in_map (fun t => map (eqn t) (range 0 (Z.of_nat d)))), Hi|]. apply in_map, in_range. lia. }
    intros i j Hi Hj Hin. destruct (mem steps i) eqn:E.
    + exists (eqn i j). split; [|apply V]. apply in_app_iff. left. apply Ha; [apply mem_spec, E|exact Hj].
    + destruct Hin as [Hin|Hin]; [apply mem_spec in Hin; congruence|]. exists (eqn' i j). split; [|apply V']. apply in_app_iff. right. apply in_concat. exists (map (fun i => eqn' i j) free). split; [apply (in_map (fun j => map (fun i => eqn' i j) free)), Hin|].
      apply (in_map (fun i => eqn' i j)). apply filter_In. split; [apply in_range; lia|]. rewrite E. reflexivity.
Qed.

(** ** The whole problem *)
Lemma forall2_in_l {A B} (P : A -> B -> Prop) l l' a : Forall2 P l l' -> In a l -> exists b, In b l' /\ P a b.
Proof. induction 1 as [|x y l l' H F IH]; intros Ha; [destruct Ha|]. destruct Ha as [<-|Ha]; [exists y; split; [left; reflexivity|exact H]|]. destruct (IH Ha) as (b & Hb & Pb). exists b. split; [right; exact Hb|exact Pb]. Qed.
Lemma forall2_in_r {A B} (P : A -> B -> Prop) l l' b : Forall2 P l l' -> In b l' -> exists a, In a l /\ P a b.
Proof. induction 1 as [|x y l l' H F IH]; intros Ha; [destruct Ha|]. destruct Ha as [<-|Ha]; [exists x; split; [left; reflexivity|exact H]|]. destruct (IH Ha) as (a & Hb & Pb). exists a. split; [right; exact Hb|exact Pb]. Qed.
Lemma forall2_weaken {A B} (P Q : A -> B -> Prop) l l' : (forall a b, In a l -> P a b -> Q a b) -> Forall2 P l l' -> Forall2 Q l l'.
Proof. intros H F. induction F as [|x y l l' Hxy F IH]; constructor; [apply H; [left; reflexivity|exact Hxy]|]. apply IH. intros a b Ha. apply H. right. exact Ha. Qed.
Lemma forall2_len {A B} (P : A -> B -> Prop) l l' : Forall2 P l l' -> length l = length l'.
Proof. induction 1; cbn; congruence. Qed.
Lemma forall2_map_r {A B C} (P : A -> C -> Prop) (g : B -> C) l l' : Forall2 (fun a b => P a (g b)) l l' -> Forall2 P l (map g l').
Proof. induction 1; constructor; auto. Qed.
Lemma rmap_one {A B} (g : A -> run (list B)) (P : A -> B -> Prop) l : (forall t, In t l -> exists a, g t = Done [a] /\ P t a) -> exists bs, rmap g l = Done (map (fun a => [a]) bs) /\ Forall2 P l bs.
Proof.
  induction l as [|t l IH]; intros H; [exists []; split; [reflexivity|constructor]|]. destruct (H t (or_introl eq_refl)) as (a & E & Pa). destruct IH as (bs & Eb & Fb); [intros u Hu; apply H; right; exact Hu|].
  exists (a :: bs). split; [cbn [rmap]; rewrite E; cbn [rdo]; rewrite Eb; reflexivity|constructor; assumption].
Qed.
Lemma concat_single {A} (l : list A) : concat (map (fun a => [a]) l) = l.
Proof. induction l as [|a l IH]; [reflexivity|]. cbn. rewrite IH. reflexivity. Qed.
Lemma check_list kind ty l : (forall t : order * jterm R, In t l -> jt_type (snd t) = ty) -> kind = TT_COST /\ ty = TT_COST \/ kind = TT_CNT /\ ty = TT_CNT -> check_terms kind (map info l) = Some false.
Proof.
  intros Ht Hk. induction l as [|t l IH]; [reflexivity|]. cbn [map check_terms]. change (ti_type (info t)) with (jt_type (snd t)). change (ti_supported (info t)) with (supported (fst t)). rewrite (Ht t (or_introl eq_refl)), IH by (intros u Hu; apply Ht; right; exact Hu).
  destruct Hk as [[-> ->]|[-> ->]]; destruct (fst t); reflexivity.
Qed.

Section Built.
  Context (inf : R) (p : plan) (rtl : bool).
  Hypothesis OK : plan_ok p inf.
  Local Notation m := (pl_steps p).
  Local Notation d := (dofs p).
  Definition cell_of (i j : Z) : nat := Z.to_nat (i * Z.of_nat d + j).
  Definition count : nat := Z.to_nat m * d.
  Lemma cell_lt i j : (0 <= i < m)%Z -> (0 <= j < Z.of_nat d)%Z -> (cell_of i j < count)%nat.
  Proof. intros Hi Hj. unfold cell_of, count. apply Nat2Z.inj_lt. rewrite Nat2Z.inj_mul, !Z2Nat.id by nia. nia. Qed.
  Lemma cell_onto k : (k < count)%nat -> exists i j, (0 <= i < m)%Z /\ (0 <= j < Z.of_nat d)%Z /\ k = cell_of i j.
  Proof.
    intros Hk. destruct OK as (_ & Hm & Hd & _). unfold count in Hk. exists (Z.of_nat (k / d)), (Z.of_nat (k mod d)). pose proof (Nat.div_mod k d ltac:(lia)) as E. pose proof (Nat.mod_upper_bound k d ltac:(lia)) as U.
    assert (k / d < Z.to_nat m)%nat by (apply Nat.div_lt_upper_bound; lia). split; [lia|]. split; [lia|]. unfold cell_of. rewrite <- Nat2Z.inj_mul, <- Nat2Z.inj_add, Nat2Z.id. lia.
  Qed.
  Definition built_facts (b : built) (ca na : list (added R)) : Prop :=
    cells (b_cells b) m (Z.of_nat d) cell_of /\ length (b_vars b) = count /\
    (forall i j, (0 <= i < m)%Z -> (0 <= j < Z.of_nat d)%Z -> nth (cell_of i j) (map (bounds_of inf) (b_vars b)) (0, 0) = limits p j) /\
    start_ok p (b_init b) /\
    (forall e, In e (b_fixed b) -> aff_in count e /\ small inf e /\ exists i j, fixed p i j /\ forall x, aff_value e x = traj_of p x i j - initial p i j) /\
    (forall i j, fixed p i j -> exists e, In e (b_fixed b) /\ forall x, aff_value e x = traj_of p x i j - initial p i j) /\
    b_added b = ca ++ na /\ Forall2 (fun t a => object m d t cell_of SideCost a) (pl_costs p) ca /\ Forall2 (fun t a => object m d t cell_of SideCnt a) (pl_cnts p) na.
  Lemma cost_ok t : In t (pl_costs p) -> term_ok m d t inf TT_COST.
  Proof. intros Ht. destruct OK as (_ & _ & _ & _ & _ & _ & _ & _ & _ & _ & Hc & _). rewrite Forall_forall in Hc. apply Hc, Ht. Qed.
  Lemma cnt_ok t : In t (pl_cnts p) -> term_ok m d t inf TT_CNT.
  Proof. intros Ht. destruct OK as (_ & _ & _ & _ & _ & _ & _ & _ & _ & _ & _ & Hc & _). rewrite Forall_forall in Hc. apply Hc, Ht. Qed.
  Lemma dofs_pos : (1 <= d)%nat. Proof. destruct OK as (_ & _ & Hd & _). lia. Qed.

  Lemma built_done : exists b ca na, construct rtl p = Done b /\ built_facts b ca na.
  Proof.
    destruct OK as (Hi & Hm & Hd & Hl & Ln & Fn & Fd & In0 & Fs & Fj & _). unfold construct. fold d.
    unfold check_time. rewrite (check_list TT_COST TT_COST) by (try (left; auto); intros t Ht; apply (cost_ok t Ht)). rewrite (check_list TT_CNT TT_CNT) by (try (right; auto); intros t Ht; apply (cnt_ok t Ht)). cbn [obnd orb andb negb lift rdo].
    destruct (C58_variables m (Z.of_nat d) false (pl_limits p) 0 0) as (pv & vars & E & Lp & Cv & Bv & _); [lia|lia|lia|reflexivity|]. rewrite E. cbn [rdo fst snd]. rewrite Z.add_0_r in Lp, Cv, Bv.
    destruct (start_done inf p OK) as (tr & E1 & E2 & St). rewrite E1. cbn [rdo]. rewrite E2. cbn [rdo]. pose proof St as (S1 & S2 & S3 & S4).
    destruct (fixed_done rtl vars m d count cell_of tr (pl_fixed_steps p) (pl_fixed_dofs p)) as (l & El & L1 & L2); [exact Cv|split; [exact S1|f_equal; exact S2]|exact Fs|exact Fj|exact cell_lt|]. rewrite El. cbn [rdo].
    destruct (rmap_one (fun t => hatch_joint (fst t) (snd t) d vars) (fun t a => object m d t cell_of SideCost a) (pl_costs p)) as (ca & Ec & Fc).
    { intros t Ht. apply (hatched inf m d t TT_COST cell_of (cost_ok t Ht) dofs_pos SideCost vars (Z.of_nat d) Cv); [lia|auto]. }
    rewrite Ec. cbn [rdo]. destruct (rmap_one (fun t => hatch_joint (fst t) (snd t) d vars) (fun t a => object m d t cell_of SideCnt a) (pl_cnts p)) as (na & En & Gn).
    { intros t Ht. apply (hatched inf m d t TT_CNT cell_of (cnt_ok t Ht) dofs_pos SideCnt vars (Z.of_nat d) Cv); [lia|auto]. }
    rewrite En. cbn [rdo]. rewrite !concat_single. eexists. exists ca, na. split; [reflexivity|]. unfold built_facts. cbn [b_cells b_vars b_init b_fixed b_added].
    split; [exact Cv|]. split; [unfold count; nia|]. split.
    { intros i j Hi' Hj'. assert (Lj : (Z.to_nat j < length (pl_limits p))%nat) by (fold d; lia). pose proof (Bv i j (nth (Z.to_nat j) (pl_limits p) (0, 0)) Hi' Hj' (nth_error_nth' _ (0, 0) Lj)) as Ej.
      apply (map_nth_error (bounds_of inf)) in Ej. apply nth_error_nth with (d := (0, 0)) in Ej. unfold cell_of. rewrite Ej. unfold bounds_of, limits. cbn [fst snd or_else]. symmetry. apply surjective_pairing. }
    split; [exact St|]. split.
    { intros e He. destruct (L1 e He) as (A & i & j & (H1 & H2 & H3) & V). rewrite (S4 i j H1 H2) in V. split; [exact A|]. split.
      - apply (small_of _ _ _ (V [])). replace (nth (cell_of i j) [] 0) with 0 by (destruct (cell_of i j); reflexivity). rewrite Rminus_0_l, Rabs_Ropp. apply (initial_small inf p OK); assumption.
      - exists i, j. split; [split; [split; assumption|exact H3]|exact V]. }
    split.
    { intros i j ((H1 & H2) & H3). destruct (L2 i j H1 H2 H3) as (e & He & V). rewrite (S4 i j H1 H2) in V. exists e. split; [exact He|exact V]. }
    split; [reflexivity|]. split; [exact Fc|exact Gn].
  Qed.
End Built.

(** ** The problem the optimizer sees *)
Lemma rsum_combine_map_l {A B} (g : A -> R) (l : list A) (mu : list B) (h : R * B -> R) : rsum h (combine (map g l) mu) = rsum (fun am => h (g (fst am), snd am)) (combine l mu).
Proof. revert mu. induction l as [|a l IH]; intros [|k mu]; [reflexivity|reflexivity|reflexivity|]. cbn [map combine]. rewrite !rsum_cons, IH. reflexivity. Qed.
Section AsProb.
  Context (inf : R) (p : plan) (b : built) (ca na : list (added R)).
  Hypothesis OK : plan_ok p inf.
  Hypothesis BF : built_facts inf p b ca na.
  Local Notation m := (pl_steps p).
  Local Notation d := (dofs p).
  Local Notation F := (as_prob inf b).
  Local Notation cnts := (filter (is_cnt true) na ++ filter (is_cnt false) na).

  Lemma cost_side t a : object m d t (cell_of p) SideCost a -> is_cost a = true /\ is_cnt true a = false /\ is_cnt false a = false.
  Proof. intros (jv & e & -> & _). auto. Qed.
  Lemma cnt_side t a : object m d t (cell_of p) SideCnt a -> is_cost a = false.
  Proof. intros (jv & e & -> & _). reflexivity. Qed.
  Lemma costs_are : get_costs b = ca.
  Proof.
    destruct BF as (_ & _ & _ & _ & _ & _ & Ea & Fc & Fn). unfold get_costs. rewrite Ea, filter_app. rewrite <- (app_nil_r ca) at 2. f_equal.
    - clear - Fc. induction Fc as [|t a l l' H F IH]; [reflexivity|]. cbn [filter]. destruct (cost_side t a H) as (-> & _). f_equal. exact IH.
    - clear - Fn. induction Fn as [|t a l l' H F IH]; [reflexivity|]. cbn [filter]. rewrite (cnt_side t a H). exact IH.
  Qed.
  Lemma cnts_are : get_cnts b = cnts.
  Proof.
    destruct BF as (_ & _ & _ & _ & _ & _ & Ea & Fc & Fn). unfold get_cnts. rewrite Ea, !filter_app.
    assert (N : forall e, filter (is_cnt e) ca = []). { intros e. clear - Fc. induction Fc as [|t a l l' H F IH]; [reflexivity|]. cbn [filter]. destruct (cost_side t a H) as (_ & A & B). destruct e; [rewrite A|rewrite B]; exact IH. }
    rewrite !N. reflexivity.
  Qed.
  Lemma costs_facts x : Forall2 (fun t a => exists v, cost_value a x = Ok v /\ term_cost m d t (traj_of p x) v /\ rsum (op_exact x) (cost_convex a) = v /\ Forall (fun o => op_ok (count p) o /\ op_small inf o) (cost_convex a)) (pl_costs p) ca.
  Proof.
    destruct BF as (_ & _ & _ & _ & _ & _ & _ & Fc & _). eapply forall2_weaken; [|exact Fc]. intros t a Ht Ho. apply (cost_facts inf m d t TT_COST (cell_of p) (count p) (cost_ok inf p OK t Ht) (dofs_pos inf p OK) (cell_lt p) a x Ho).
  Qed.
  Definition cnt_fact (x : list R) (t : order * jterm R) (a : added R) : Prop :=
    exists v, cnt_viol a x = Ok v /\ term_viol m d t (traj_of p x) v /\ Forall (fun e => aff_in (count p) e /\ small inf e) (cc_eqs (cnt_convex a) ++ cc_ineqs (cnt_convex a)) /\
    (~ is_exact d t -> convex_viol x (cnt_convex a) = v) /\ (is_exact d t -> convex_viol x (cnt_convex a) = over_term m d t (fun i j => Rabs (coeff d t j * dev d t (traj_of p x) i j))) /\
    (is_cnt true a = true <-> is_exact d t) /\ is_cnt false a = negb (is_cnt true a).
  Lemma cnts_split : exists eqs ineqs, Permutation (eqs ++ ineqs) (pl_cnts p) /\ Forall (is_exact d) eqs /\ Forall (fun t => ~ is_exact d t) ineqs /\ forall x, Forall2 (cnt_fact x) (eqs ++ ineqs) cnts.
  Proof.
    destruct BF as (_ & _ & _ & _ & _ & _ & _ & _ & Fn).
    assert (G : Forall2 (fun t a => forall x, cnt_fact x t a) (pl_cnts p) na).
    { eapply forall2_weaken; [|exact Fn]. intros t a Ht Ho x. apply (cnt_facts inf m d t TT_CNT (cell_of p) (count p) (cnt_ok inf p OK t Ht) (dofs_pos inf p OK) (cell_lt p) a x Ho). }
    clear Fn BF. enough (K : exists eqs ineqs, Permutation (eqs ++ ineqs) (pl_cnts p) /\ Forall (is_exact d) eqs /\ Forall (fun t => ~ is_exact d t) ineqs /\ Forall2 (fun t a => forall x, cnt_fact x t a) eqs (filter (is_cnt true) na) /\ Forall2 (fun t a => forall x, cnt_fact x t a) ineqs (filter (is_cnt false) na)).
    { destruct K as (eqs & ineqs & K1 & K2 & K3 & K4 & K5). exists eqs, ineqs. split; [exact K1|]. split; [exact K2|]. split; [exact K3|]. intros x. apply Forall2_app; (eapply forall2_weaken; [|eassumption]); intros t a _ H; apply H. }
    induction G as [|t a l l' H G IH]; [exists [], []; split; [constructor|]; split; [constructor|]; split; [constructor|]; split; constructor|].
    destruct IH as (eqs & ineqs & K1 & K2 & K3 & K4 & K5). destruct (H []) as (_ & _ & _ & _ & _ & _ & I1 & I2). cbn [filter]. rewrite I2. destruct (is_cnt true a) eqn:E; cbn [negb].
    - exists (t :: eqs), ineqs. split; [constructor; exact K1|]. split; [constructor; [apply I1; reflexivity|exact K2]|]. split; [exact K3|]. split; [constructor; assumption|exact K5].
    - exists eqs, (t :: ineqs). split; [apply Permutation_sym, Permutation_cons_app, Permutation_sym, K1|]. split; [exact K2|]. split; [constructor; [intros N; apply I1 in N; congruence|exact K3]|]. split; [exact K4|constructor; assumption].
  Qed.
  Lemma vars_count : length (f_vars F) = count p. Proof. cbn [f_vars as_prob]. rewrite map_length. apply BF. Qed.
  Lemma count_pos : (0 < count p)%nat. Proof. destruct OK as (_ & Hm & Hd & _). unfold count. nia. Qed.
  Lemma bounds_are i j : (0 <= i < m)%Z -> (0 <= j < Z.of_nat d)%Z -> nth (cell_of p i j) (f_lb F) 0 = fst (limits p j) /\ nth (cell_of p i j) (f_ub F) 0 = snd (limits p j).
  Proof.
    intros Hi Hj. destruct BF as (_ & Lv & Bv & _). rewrite <- (Bv i j Hi Hj). cbn [f_lb f_ub as_prob]. pose proof (cell_lt p i j Hi Hj) as Hc.
    assert (N : forall (g : R * R -> R) l, (cell_of p i j < length l)%nat -> nth (cell_of p i j) (map g l) 0 = g (nth (cell_of p i j) l (0, 0))) by (intros g l Hl; rewrite (nth_indep _ 0 (g (0, 0))) by (rewrite map_length; exact Hl); apply map_nth).
    rewrite !N by (rewrite map_length; lia). auto.
  Qed.
  Lemma values_cost x : Forall2 (fun t v => term_cost m d t (traj_of p x) v) (pl_costs p) (f_costs F x).
  Proof.
    cbn [f_costs as_prob]. rewrite costs_are. apply forall2_map_r. eapply forall2_weaken; [|exact (costs_facts x)]. intros t a _ (v & -> & H & _). exact H.
  Qed.
  Lemma as_prob_ok eps x0 : prob_ok inf eps F x0.
  Proof.
    destruct OK as (Hi & Hm & Hd & Hl & _ & _ & _ & _ & _ & _ & _ & _ & Ne). destruct BF as (_ & Lv & _ & _ & B1 & _). unfold prob_ok. rewrite vars_count. split; [exact Hi|].
    split; [cbn [f_lb as_prob]; rewrite !map_length; exact Lv|]. split; [cbn [f_ub as_prob]; rewrite !map_length; exact Lv|]. split.
    { intros k Hk. destruct (cell_onto inf p OK k Hk) as (i & j & H1 & H2 & ->). destruct (bounds_are i j H1 H2) as [-> ->]. unfold limits. rewrite Forall_forall in Hl. apply Hl, nth_In. fold d. lia. }
    split; [cbn [f_lin as_prob]; apply Forall_map, Forall_forall; intros e He; cbn [snd]; destruct (B1 e He) as (A & S0 & _); auto|].
    intros x Lx _. destruct cnts_split as (eqs & ineqs & P1 & _ & _ & P2). pose proof (P2 x) as G. pose proof (forall2_len _ _ _ G) as Lg. pose proof (costs_facts x) as Gc. pose proof (forall2_len _ _ _ Gc) as Lc. cbn [f_viols f_ccnts f_ncnt f_costs f_ccosts as_prob]. rewrite costs_are, cnts_are, !map_length.
    split; [reflexivity|]. split; [reflexivity|]. split; [|split].
    - destruct Ne as [Ne|Ne]; [left|right]; intros X; apply (f_equal (@length R)) in X; rewrite map_length in X; cbn [length] in X.
      + rewrite <- Lc in X. destruct (pl_costs p); [congruence|discriminate].
      + apply Permutation_length in P1. rewrite Lg, X in P1. destruct (pl_cnts p); [congruence|discriminate].
    - apply Forall_map, Forall_forall. intros a Ha. destruct (forall2_in_r _ _ _ a Gc Ha) as (t & _ & v & _ & _ & _ & H). exact H.
    - apply Forall_map, Forall_forall. intros a Ha. destruct (forall2_in_r _ _ _ a G Ha) as (t & _ & v & _ & _ & H & _). exact H.
  Qed.
  Lemma costs_exact x0 x : rsum (fun ops => rsum (op_exact x) ops) (f_ccosts F x0) = rsum (fun c => c) (f_costs F x).
  Proof.
    cbn [f_ccosts f_costs as_prob]. rewrite costs_are, !rsum_map. pose proof (costs_facts x) as Gc. apply rsum_ext. intros a Ha. destruct (forall2_in_r _ _ _ a Gc Ha) as (t & _ & v & -> & _ & -> & _). reflexivity.
  Qed.
  Lemma viols_exact mu x0 x : (forall t, In t (pl_cnts p) -> ~ is_exact d t) -> rsum (fun ck => snd ck * convex_viol x (fst ck)) (combine (f_ccnts F x0) mu) = rsum (fun vm => snd vm * fst vm) (combine (f_viols F x) mu).
  Proof.
    intros Hn. cbn [f_ccnts f_viols as_prob]. rewrite cnts_are. destruct cnts_split as (eqs & ineqs & P1 & _ & _ & P2). specialize (P2 x).
    assert (G : Forall (fun a => convex_viol x (cnt_convex a) = value_or 0 (cnt_viol a x)) cnts).
    { apply Forall_forall. intros a Ha. destruct (forall2_in_r _ _ _ a P2 Ha) as (t & Ht & v & -> & _ & _ & H & _). apply H, Hn, (Permutation_in _ P1), Ht. }
    clear P2. revert mu G. generalize cnts as l. induction l as [|a l IH]; intros [|k mu] G; [reflexivity|reflexivity|reflexivity|]. apply Forall_cons_iff in G as [G1 G2]. cbn [map combine]. rewrite !rsum_cons, IH by exact G2. cbn [fst snd]. rewrite G1. reflexivity.
  Qed.
End AsProb.

(** ** Sums over terms *)
Lemma exact_dec d t : is_exact d t \/ ~ is_exact d t.
Proof.
  unfold is_exact, exact. set (l := per_joint d 0 _ ++ _). destruct (Forall_dec (fun v => Rabs v < / 100000) (fun v => Rlt_dec (Rabs v) (/ 100000)) l) as [H|H]; [left; apply Forall_forall, H|right; intros N; apply H, Forall_forall, N].
Qed.
Lemma bigsum_conv n t h1 h2 h3 : (forall k, (k < n)%nat -> h1 k <= (1 - t) * h2 k + t * h3 k) -> bigsum n h1 <= (1 - t) * bigsum n h2 + t * bigsum n h3.
Proof. intros H. rewrite <- !bigsum_scal, <- bigsum_plus. apply rsum_le. intros k Hk. apply in_seq in Hk. apply H. lia. Qed.
Lemma over_conv m d q t h1 h2 h3 : (forall i j, in_term m d q i j -> h1 i j <= (1 - t) * h2 i j + t * h3 i j) -> over_term m d q h1 <= (1 - t) * over_term m d q h2 + t * over_term m d q h3.
Proof. intros H. unfold over_term, over_cells. apply bigsum_conv. intros k Hk. apply bigsum_conv. intros j Hj. apply H. unfold in_term. lia. Qed.
Lemma over_ext m d q h1 h2 : (forall i j, in_term m d q i j -> h1 i j = h2 i j) -> over_term m d q h1 = over_term m d q h2.
Proof. intros H. unfold over_term, over_cells. apply bigsum_ext. intros k Hk. apply bigsum_ext. intros j Hj. apply H. unfold in_term. lia. Qed.
Lemma over_bound m d q h i j : (forall i j, in_term m d q i j -> 0 <= h i j) -> in_term m d q i j -> h i j <= over_term m d q h.
Proof.
  intros H Hij. unfold over_term, over_cells. unfold in_term in *. set (n := Z.to_nat _). set (k := Z.to_nat (i - first_step m q)). set (l := Z.to_nat j).
  assert (Hk : (k < n)%nat) by (unfold k, n; lia). assert (Hl : (l < Z.to_nat (Z.of_nat d))%nat) by (unfold l; lia).
  pose proof (bigsum_bound (Z.to_nat (Z.of_nat d)) (fun j => h i (Z.of_nat j)) l) as B1. cbn beta in B1. replace (Z.of_nat l) with j in B1 by (unfold l; lia).
  pose proof (bigsum_bound n (fun k => bigsum (Z.to_nat (Z.of_nat d)) (fun j => h (first_step m q + Z.of_nat k)%Z (Z.of_nat j))) k) as B2. cbn beta in B2. replace (first_step m q + Z.of_nat k)%Z with i in B2 by (unfold k; lia).
  eapply Rle_trans; [apply B1; [intros a Ha; apply H; lia|exact Hl]|]. apply B2; [|exact Hk]. intros a Ha. apply rsum_nonneg. intros c Hc. apply in_seq in Hc. apply H. unfold n in Ha. lia.
Qed.
Lemma over_nonneg m d q h : (forall i j, in_term m d q i j -> 0 <= h i j) -> 0 <= over_term m d q h.
Proof. intros H. unfold over_term, over_cells. apply rsum_nonneg. intros k Hk. apply in_seq in Hk. apply rsum_nonneg. intros j Hj. apply in_seq in Hj. apply H. unfold in_term. lia. Qed.
Lemma over_zero m d q h : (forall i j, in_term m d q i j -> h i j = 0) -> over_term m d q h = 0.
Proof. intros H. rewrite (over_ext m d q h (fun _ _ => 0) H). unfold over_term, over_cells. set (n := Z.to_nat _). transitivity (bigsum n (fun _ => 0)); [apply bigsum_ext; intros k _; apply bigsum_zero|apply bigsum_zero]. Qed.

Lemma excess_nonneg d q X i j : 0 <= excess d q X i j.
Proof. unfold excess. pose proof (Rmax_r (coeff d q j * (dev d q X i j - upper d q j)) 0). pose proof (Rmax_r (coeff d q j * (lower d q j - dev d q X i j)) 0). lra. Qed.
Lemma viol_nonneg m d q X v : term_viol m d q X v -> 0 <= v.
Proof. intros [H1 H2]. destruct (exact_dec d q) as [E|E]; [rewrite (H1 E)|rewrite (H2 E)]; apply over_nonneg; intros; [apply Rabs_pos|apply excess_nonneg]. Qed.
Lemma cost_nonneg m d q X v : bowl d q -> term_cost m d q X v -> 0 <= v.
Proof. intros Hb [H1 H2]. destruct (exact_dec d q) as [E|E]; [rewrite (H1 E)|rewrite (H2 E)]; apply over_nonneg; intros i j Hij; [|apply excess_nonneg]. apply Rmult_le_pos; [apply (Hb E); unfold in_term in Hij; lia|apply Rle_0_sqr]. Qed.

Lemma Rmax_conv a b c t : 0 <= t <= 1 -> a <= (1 - t) * b + t * c -> Rmax a 0 <= (1 - t) * Rmax b 0 + t * Rmax c 0.
Proof. intros Ht H. pose proof (Rmax_l b 0). pose proof (Rmax_r b 0). pose proof (Rmax_l c 0). pose proof (Rmax_r c 0). apply Rmax_lub; nra. Qed.
Section Line.
  Context (m : Z) (d : nat) (q : order * jterm R) (t : R) (X Y Z : BinNums.Z -> BinNums.Z -> R).
  Hypothesis Ht : 0 <= t <= 1.
  Hypothesis HX : forall i j, X i j = Y i j + t * (Z i j - Y i j).
  Lemma dev_line i j : dev d q X i j = (1 - t) * dev d q Y i j + t * dev d q Z i j.
  Proof. unfold dev, difference. destruct (fst q); rewrite !HX; ring. Qed.
  Lemma excess_line i j : excess d q X i j <= (1 - t) * excess d q Y i j + t * excess d q Z i j.
  Proof.
    unfold excess. pose proof (dev_line i j) as D. pose proof (Rmax_conv (coeff d q j * (dev d q X i j - upper d q j)) (coeff d q j * (dev d q Y i j - upper d q j)) (coeff d q j * (dev d q Z i j - upper d q j)) t Ht ltac:(rewrite D; right; ring)).
    pose proof (Rmax_conv (coeff d q j * (lower d q j - dev d q X i j)) (coeff d q j * (lower d q j - dev d q Y i j)) (coeff d q j * (lower d q j - dev d q Z i j)) t Ht ltac:(rewrite D; right; ring)). lra.
  Qed.
  Lemma cost_line vx vy vz : bowl d q -> term_cost m d q X vx -> term_cost m d q Y vy -> term_cost m d q Z vz -> vx <= (1 - t) * vy + t * vz.
  Proof.
    intros Hb [X1 X2] [Y1 Y2] [Z1 Z2]. destruct (exact_dec d q) as [E|E]; [rewrite (X1 E), (Y1 E), (Z1 E)|rewrite (X2 E), (Y2 E), (Z2 E)]; apply over_conv; intros i j Hij; [|apply excess_line].
    rewrite dev_line. assert (Hc : 0 <= coeff d q j) by (apply (Hb E); unfold in_term in Hij; lia). set (a := dev d q Y i j). set (b := dev d q Z i j).
    assert (0 <= coeff d q j * (t * (1 - t) * ((a - b) * (a - b)))) by (apply Rmult_le_pos; [exact Hc|]; apply Rmult_le_pos; [nra|apply Rle_0_sqr]). nra.
  Qed.
  Lemma viol_line vx vy vz : ~ is_exact d q -> term_viol m d q X vx -> term_viol m d q Y vy -> term_viol m d q Z vz -> vx <= (1 - t) * vy + t * vz.
  Proof. intros E [_ X2] [_ Y2] [_ Z2]. rewrite (X2 E), (Y2 E), (Z2 E). apply over_conv. intros i j _. apply excess_line. Qed.
End Line.
