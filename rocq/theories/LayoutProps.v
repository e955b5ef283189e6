(** * C58: the layout of the trajectory variables *)
From Coq Require Import ZArith List Bool Arith Lia.
From Verif Require Import Num Common ScoExprModel ArrayModel TrajCostModel TrajoptModel ArrayProps TrajCostProps.
Import ListNotations.
Local Open Scope Z_scope.

(** blocks of equal length one after the other *)
Lemma flat_len {X A} (g : X -> list A) w l : (forall x, In x l -> length (g x) = w) -> length (flat_map g l) = (length l * w)%nat.
Proof.
  induction l as [|x l IH]; intros H; [reflexivity|]. cbn [flat_map length]. rewrite app_length, H by (left; reflexivity).
  rewrite IH by (intros; apply H; right; auto). lia.
Qed.
Lemma flat_nth {X A} (g : X -> list A) w l k j x : (forall x, In x l -> length (g x) = w) -> nth_error l k = Some x -> (j < w)%nat ->
  nth_error (flat_map g l) (k * w + j) = nth_error (g x) j.
Proof.
  revert k; induction l as [|y l IH]; intros k H Hk Hj; [destruct k; discriminate|]. cbn [flat_map].
  destruct k as [|k]; cbn in Hk.
  - injection Hk as ->. cbn [Nat.mul Nat.add]. rewrite nth_error_app1; [reflexivity|]. rewrite H by (left; reflexivity). exact Hj.
  - rewrite nth_error_app2; rewrite H by (left; reflexivity); [|lia].
    replace (S k * w + j - w)%nat with (k * w + j)%nat by lia. apply IH; auto. intros; apply H; right; auto.
Qed.
Lemma range_nth_error from n k : (k < Z.to_nat n)%nat -> nth_error (range from n) k = Some (from + Z.of_nat k).
Proof.
  intros H. unfold range. rewrite nth_error_map. rewrite (nth_error_nth' _ 0%nat) by (rewrite seq_length; exact H).
  rewrite seq_nth by exact H. reflexivity.
Qed.
Lemma range_length from n : length (range from n) = Z.to_nat n.
Proof. unfold range. rewrite map_length, seq_length. reflexivity. Qed.
Lemma combine_nth_error {A B} (l : list A) (l' : list B) k a b : nth_error l k = Some a -> nth_error l' k = Some b -> nth_error (combine l l') k = Some (a, b).
Proof.
  revert l' k; induction l as [|x l IH]; intros [|y l'] [|k]; cbn; try discriminate; auto. congruence.
Qed.
Lemma of_seq_cells m n : 0 <= m < 2 ^ 31 -> 0 <= n < 2 ^ 31 -> forall d, d = seq 0 (Z.to_nat (m * n)) ->
  cells (of_data m n d) m n (fun i j => Z.to_nat (i * n + j)).
Proof.
  intros Hm Hn d ->. unfold cells. cbn [r_rows r_cols r_data of_data]. rewrite seq_length.
  repeat split; try lia. intros i j Hi Hj. rewrite (C55_at _ m n i j 0%nat); auto; [|rewrite seq_length; lia].
  rewrite seq_nth; [f_equal; lia|]. nia.
Qed.

(** C58: one variable per step and joint (and time), row by row, with the joint's limits (or those of dt) *)
Theorem C58_variables : forall {T : Type} (n_steps n_dof : Z) (use_time : bool) (limits : list (T * T)) (dt_lower dt_upper : T),
  let w := n_dof + (if use_time then 1 else 0) in
  0 <= n_steps < 2 ^ 31 -> 0 <= n_dof -> w < 2 ^ 31 -> Z.of_nat (length limits) = n_dof ->
  exists p vars, traj_prob n_steps n_dof use_time limits dt_lower dt_upper = Done (p, vars) /\
    Z.of_nat (length p) = n_steps * w /\ cells vars n_steps w (fun i j => Z.to_nat (i * w + j)) /\
    (forall i j l, 0 <= i < n_steps -> 0 <= j < n_dof -> nth_error limits (Z.to_nat j) = Some l ->
       nth_error p (Z.to_nat (i * w + j)) = Some (NCell prefix_j i j, (Some (fst l), Some (snd l)))) /\
    (use_time = true -> forall i, 0 <= i < n_steps ->
       nth_error p (Z.to_nat (i * w + n_dof)) = Some (NDt i, (Some dt_lower, Some dt_upper))).
Proof.
  intros T n_steps n_dof use_time limits dlo dup w Hs Hd Hw Hl. unfold traj_prob, create_variables.
  set (gn := fun i => map (NCell prefix_j i) (range 0 n_dof) ++ (if use_time then [NDt i] else [])).
  set (gl := fun _ : Z => map (fun l => Some (fst l)) limits ++ (if use_time then [Some dlo] else [])).
  set (gu := fun _ : Z => map (fun l => Some (snd l)) limits ++ (if use_time then [Some dup] else [])).
  assert (Ln : forall x, length (gn x) = Z.to_nat w).
  { intros x. unfold gn. rewrite app_length, map_length, range_length. unfold w. destruct use_time; cbn [length]; lia. }
  assert (Ll : forall x, length (gl x) = Z.to_nat w).
  { intros x. unfold gl. rewrite app_length, map_length. unfold w. destruct use_time; cbn [length]; lia. }
  assert (Lu : forall x, length (gu x) = Z.to_nat w).
  { intros x. unfold gu. rewrite app_length, map_length. unfold w. destruct use_time; cbn [length]; lia. }
  rewrite !(flat_len gn (Z.to_nat w)), !(flat_len gl (Z.to_nat w)), !(flat_len gu (Z.to_nat w)) by auto.
  rewrite !Nat.eqb_refl. cbn [andb rdo fst snd]. rewrite app_nil_l. cbn [length].
  eexists. eexists. split; [reflexivity|]. split.
  { rewrite !combine_length, (flat_len gn (Z.to_nat w)), (flat_len gl (Z.to_nat w)), (flat_len gu (Z.to_nat w)) by auto.
    rewrite !Nat.min_id, range_length. unfold w. destruct use_time; nia. }
  split. { apply of_seq_cells; auto; [unfold w in *; destruct use_time; lia|]. f_equal. rewrite range_length. unfold w. destruct use_time; nia. }
  assert (P : forall i j a b c, 0 <= i < n_steps -> 0 <= j < w -> nth_error (gn i) (Z.to_nat j) = Some a -> nth_error (gl i) (Z.to_nat j) = Some b ->
     nth_error (gu i) (Z.to_nat j) = Some c ->
     nth_error (combine (flat_map gn (range 0 n_steps)) (combine (flat_map gl (range 0 n_steps)) (flat_map gu (range 0 n_steps)))) (Z.to_nat (i * w + j)) = Some (a, (b, c))).
  { intros i j a b c Hi Hj Ha Hb Hc.
    assert (R : nth_error (range 0 n_steps) (Z.to_nat i) = Some i) by (rewrite range_nth_error by lia; f_equal; lia).
    replace (Z.to_nat (i * w + j)) with (Z.to_nat i * Z.to_nat w + Z.to_nat j)%nat by nia.
    apply combine_nth_error; [|apply combine_nth_error]; rewrite (flat_nth _ (Z.to_nat w) _ _ _ i); auto; lia. }
  split.
  - intros i j l Hi Hj Hlj. apply P; auto.
    + unfold w. destruct use_time; lia.
    + unfold gn. rewrite nth_error_app1 by (rewrite map_length, range_length; lia). rewrite nth_error_map, range_nth_error by lia. cbn. do 2 f_equal. lia.
    + unfold gl. rewrite nth_error_app1 by (rewrite map_length; lia). rewrite nth_error_map, Hlj. reflexivity.
    + unfold gu. rewrite nth_error_app1 by (rewrite map_length; lia). rewrite nth_error_map, Hlj. reflexivity.
  - intros E i Hi. apply P; auto.
    + unfold w. rewrite E. lia.
    + unfold gn. rewrite E. rewrite nth_error_app2 by (rewrite map_length, range_length; lia). rewrite map_length, range_length, Nat.sub_diag. reflexivity.
    + unfold gl. rewrite E. rewrite nth_error_app2 by (rewrite map_length; lia). rewrite map_length. replace (Z.to_nat n_dof - length limits)%nat with 0%nat by lia. reflexivity.
    + unfold gu. rewrite E. rewrite nth_error_app2 by (rewrite map_length; lia). rewrite map_length. replace (Z.to_nat n_dof - length limits)%nat with 0%nat by lia. reflexivity.
Qed.
Print Assumptions C58_variables.

(** C58: createVariables appends the variables with their bounds and returns their numbers *)
Theorem C58_create : forall {T : Type} (p : opt_prob T) (names : list vname) (lb ub : list (option T)),
  (length lb = length names /\ length ub = length names ->
   exists p' vars, create_variables p names lb ub = Done (p', vars) /\ firstn (length p) p' = p /\
     length p' = (length p + length names)%nat /\ length vars = length names /\ NoDup vars /\
     forall k v name lo up, nth_error vars k = Some v -> nth_error names k = Some name -> nth_error lb k = Some lo -> nth_error ub k = Some up ->
       (length p <= v)%nat /\ nth_error p' v = Some (name, (lo, up))) /\
  (length lb <> length names \/ length ub <> length names -> create_variables p names lb ub = Assert).
Proof.
  intros T p names lb ub. unfold create_variables. split.
  - intros [Hl Hu]. rewrite Hl, Hu, Nat.eqb_refl. cbn [andb]. do 2 eexists. split; [reflexivity|].
    split; [rewrite firstn_app, Nat.sub_diag, firstn_O, app_nil_r, firstn_all; reflexivity|].
    split; [rewrite app_length, !combine_length; lia|]. split; [apply seq_length|]. split; [apply seq_NoDup|].
    intros k v name lo up Hv Hn Hlo Hup.
    assert (Hk : (k < length names)%nat) by (apply nth_error_Some; congruence).
    rewrite (nth_error_nth' _ 0%nat) in Hv by (rewrite seq_length; exact Hk). rewrite seq_nth in Hv by exact Hk. injection Hv as <-.
    split; [lia|]. rewrite nth_error_app2 by lia. replace (length p + k - length p)%nat with k by lia.
    apply combine_nth_error; [exact Hn|]. apply combine_nth_error; assumption.
  - intros [H|H]; apply Nat.eqb_neq in H; rewrite H; [|rewrite andb_false_r]; reflexivity.
Qed.
Print Assumptions C58_create.
Example C58_create_ex : create_variables [(NDt 0, (Some 1, None))] [NCell prefix_j 1 0; NCell prefix_j 1 1] [Some 2; None] [Some 3; Some 4] =
  Done ([(NDt 0, (Some 1, None)); (NCell prefix_j 1 0, (Some 2, Some 3)); (NCell prefix_j 1 1, (None, Some 4))], [1; 2]%nat).
Proof. reflexivity. Qed.

(** C58: getTraj reads variable f(i, j) of x into row i, column j *)
Theorem C58_get_traj : forall {T : Type} {NT : Num T} (vars : array nat) (m n : Z) (f : Z -> Z -> nat) (x : list T),
  cells vars m n f ->
  exists rows, get_traj x vars = Some rows /\ Z.of_nat (length rows) = m /\
  forall i j, 0 <= i < m -> 0 <= j < n ->
    exists row, nth_error rows (Z.to_nat i) = Some row /\ Z.of_nat (length row) = n /\ nth_error row (Z.to_nat j) = Some (nth (f i j) x nzero).
Proof.
  intros T NT vars m n f x (Hr & Hc & Hl & Hm & Hn & Hat). unfold get_traj. rewrite Hr, Hc.
  rewrite (omap_ok _ (fun i => map (fun j => nth (f i j) x nzero) (range 0 n))).
  - eexists. split; [reflexivity|]. rewrite map_length, range_length. split; [lia|].
    intros i j Hi Hj. eexists. split.
    + rewrite nth_error_map, range_nth_error by lia. reflexivity.
    + rewrite map_length, range_length. split; [lia|]. rewrite nth_error_map, range_nth_error by lia. cbn. do 2 f_equal. f_equal; lia.
  - intros i Hi. apply in_range in Hi. apply omap_ok. intros j Hj. apply in_range in Hj. rewrite Hat by lia. reflexivity.
Qed.
Print Assumptions C58_get_traj.

(** ** AddVarArrays *)
Fixpoint zsum (l : list Z) : Z := match l with [] => 0 | c :: l => c + zsum l end.
Lemma flat_app_len (cols : list Z) (i : Z) k : (k <= length cols)%nat -> Forall (fun c => 0 <= c) cols ->
  Z.of_nat (length (flat_map (fun k => map (fun j => (k, i, j)) (range 0 (nth k cols 0))) (seq 0 k))) = zsum (firstn k cols).
Proof.
  induction k as [|k IH]; intros Hk Hc; [reflexivity|].
  rewrite seq_S, flat_map_app, app_length, Nat2Z.inj_add, IH by (auto; lia). cbn [flat_map Nat.add]. rewrite app_nil_r, map_length, range_length.
  assert (E : firstn (S k) cols = firstn k cols ++ [nth k cols 0]).
  { clear -Hk. revert k Hk; induction cols as [|c cols IH]; intros k Hk; [cbn in Hk; lia|]. destruct k; [reflexivity|]. cbn [firstn nth app]. f_equal. apply IH. cbn in Hk. lia. }
  rewrite E. assert (Z : forall a b, zsum (a ++ b) = zsum a + zsum b) by (induction a; intros; cbn; [reflexivity|rewrite IHa; lia]).
  rewrite Z. cbn. rewrite Forall_forall in Hc. assert (0 <= nth k cols 0) by (apply Hc, nth_In; lia). lia.
Qed.
Lemma index_skip l c b l2 : ~ In c l -> index_from (l ++ c :: l2) c b = (b + length l)%nat.
Proof.
  assert (R : forall d c, cell_eqb d c = true <-> d = c).
  { intros [[k i] j] [[k' i'] j']. cbn. rewrite !andb_true_iff, Nat.eqb_eq, !Z.eqb_eq. split; [intros [[-> ->] ->]; reflexivity|intros [= -> -> ->]; auto]. }
  revert b; induction l as [|d l IH]; intros b H; cbn.
  - rewrite (proj2 (R c c) eq_refl). lia.
  - destruct (cell_eqb d c) eqn:E; [apply R in E; exfalso; apply H; left; auto|]. rewrite IH; [lia|]. intros Hi; apply H; right; auto.
Qed.
Lemma range_cut from n k : 0 <= k < n -> exists r2, range from n = range from k ++ (from + k) :: r2.
Proof.
  intros Hk. rewrite (range_split from n k) by lia. rewrite (range_split (from + k) (n - k) 1) by lia.
  exists (range (from + k + 1) (n - k - 1)). change (range (from + k) 1) with [from + k + 0]. rewrite Z.add_0_r. reflexivity.
Qed.
Lemma seq_cut n k : (k < n)%nat -> exists r2, seq 0 n = seq 0 k ++ k :: r2.
Proof. intros H. exists (seq (S k) (n - S k)). replace n with (k + S (n - S k))%nat at 1 by lia. rewrite seq_app. reflexivity. Qed.

(** the cell (i, j) of array k stands at i*total + (columns of the arrays before) + j *)
Lemma cell_at rows cols (k : nat) (i j : Z) : 0 <= rows -> Forall (fun c => 0 <= c) cols -> (k < length cols)%nat -> 0 <= i < rows -> 0 <= j < nth k cols 0 ->
  exists A B, cell_order rows cols = A ++ (k, i, j) :: B /\ ~ In (k, i, j) A /\ Z.of_nat (length A) = i * zsum cols + zsum (firstn k cols) + j.
Proof.
  intros Hr Hc Hk Hi Hj. unfold cell_order.
  destruct (range_cut 0 rows i Hi) as (R2 & ->). destruct (seq_cut (length cols) k Hk) as (K2 & EK). destruct (range_cut 0 _ j Hj) as (J2 & EJ).
  set (inner := fun (i : Z) (k : nat) => map (fun j => (k, i, j)) (range 0 (nth k cols 0))).
  change (flat_map (fun i0 => flat_map (fun k0 => map (fun j0 => (k0, i0, j0)) (range 0 (nth k0 cols 0))) (seq 0 (length cols)))) with
    (flat_map (fun i0 => flat_map (inner i0) (seq 0 (length cols)))).
  rewrite flat_map_app. cbn [flat_map]. rewrite !Z.add_0_l.
  pose (A1 := flat_map (fun i0 => flat_map (inner i0) (seq 0 (length cols))) (range 0 i)).
  pose (A2 := flat_map (inner i) (seq 0 k)). pose (A3 := map (fun j => (k, i, j)) (range 0 j)).
  exists (A1 ++ A2 ++ A3). eexists. split; [|split].
  - fold A1. rewrite EK, flat_map_app. cbn [flat_map]. fold A2.
    assert (EI : inner i k = A3 ++ (k, i, j) :: map (fun j => (k, i, j)) J2).
    { unfold inner. rewrite EJ, map_app. cbn [map]. rewrite Z.add_0_l. reflexivity. }
    rewrite EI, <- !app_assoc. cbn [app]. reflexivity.
  - rewrite !in_app_iff. intros [H|[H|H]].
    + apply in_flat_map in H. destruct H as (i' & Hi' & H). apply in_range in Hi'. apply in_flat_map in H. destruct H as (k' & _ & H).
      apply in_map_iff in H. destruct H as (j' & [= _ E _] & _). lia.
    + apply in_flat_map in H. destruct H as (k' & Hk' & H). apply in_seq in Hk'. apply in_map_iff in H. destruct H as (j' & [= E _] & _). lia.
    + apply in_map_iff in H. destruct H as (j' & [= E] & Hj'). apply in_range in Hj'. lia.
  - rewrite !app_length, !Nat2Z.inj_add.
    assert (L1 : Z.of_nat (length A1) = i * zsum cols).
    { unfold A1. rewrite (flat_len _ (Z.to_nat (zsum cols))).
      - rewrite range_length. assert (0 <= zsum cols). { clear -Hc. induction cols as [|c cols IH]; [cbn; lia|]. inversion Hc; subst. cbn. specialize (IH H2). lia. }
        nia.
      - intros i' _. apply Nat2Z.inj. unfold inner. rewrite (flat_app_len cols i' (length cols)) by (auto; lia). rewrite firstn_all.
        assert (0 <= zsum cols). { clear -Hc. induction cols as [|c cols IH]; [cbn; lia|]. inversion Hc; subst. cbn. specialize (IH H2). lia. } lia. }
    rewrite L1. unfold A2, inner. rewrite flat_app_len by (auto; lia). unfold A3. rewrite map_length, range_length. lia.
Qed.

Lemma rmap_ok {A B} (f : A -> run B) (P : A -> B -> Prop) l : (forall a, In a l -> exists b, f a = Done b /\ P a b) ->
  exists bs, rmap f l = Done bs /\ Forall2 P l bs.
Proof.
  induction l as [|a l IH]; intros H; [exists []; split; [reflexivity|constructor]|].
  destruct (H a) as (b & E & Hb); [left; reflexivity|]. destruct IH as (bs & E2 & H2); [intros; apply H; right; auto|].
  exists (b :: bs). cbn. rewrite E. cbn. rewrite E2. split; [reflexivity|constructor; auto].
Qed.
Lemma Forall2_nth_error {A B} (P : A -> B -> Prop) l l' k a : Forall2 P l l' -> nth_error l k = Some a -> exists b, nth_error l' k = Some b /\ P a b.
Proof. intros H. revert k; induction H; intros [|k] E; cbn in *; try discriminate; eauto. injection E as ->. eauto. Qed.
Lemma Forall2_len {A B} (P : A -> B -> Prop) l l' : Forall2 P l l' -> length l = length l'.
Proof. induction 1; cbn; auto. Qed.

(** C58: AddVarArrays appends one unbounded variable per cell; the arrays share the rows *)
Theorem C58_arrays : forall {T : Type} (p : opt_prob T) (rows : Z) (cols : list Z) (prefixes : list nat),
  0 <= rows < 2 ^ 31 -> Forall (fun c => 0 <= c < 2 ^ 31) cols -> length prefixes = length cols ->
  exists p' arrs, add_var_arrays p rows cols prefixes = Done (p', arrs) /\ length arrs = length cols /\ firstn (length p) p' = p /\
    Z.of_nat (length p') = Z.of_nat (length p) + rows * zsum cols /\
    forall k c pre, nth_error cols k = Some c -> nth_error prefixes k = Some pre ->
      let number i j := Z.to_nat (Z.of_nat (length p) + i * zsum cols + zsum (firstn k cols) + j) in
      exists a, nth_error arrs k = Some a /\ cells a rows c number /\
      forall i j, 0 <= i < rows -> 0 <= j < c -> nth_error p' (number i j) = Some (NCell pre i j, (None, None)).
Proof.
  intros T p rows cols prefixes Hr Hc Hp.
  assert (Hc0 : Forall (fun c => 0 <= c) cols) by (eapply Forall_impl; [|exact Hc]; cbn; lia).
  assert (Hnn : 0 <= zsum cols). { clear -Hc0. induction cols as [|c cols IH]; [cbn; lia|]. inversion Hc0; subst. cbn. specialize (IH H2). lia. }
  assert (Hnth : forall k, (k < length cols)%nat -> 0 <= nth k cols 0 < 2 ^ 31). { intros k Hk. rewrite Forall_forall in Hc. apply Hc, nth_In, Hk. }
  unfold add_var_arrays. rewrite Hp, Nat.eqb_refl. cbn [negb]. set (order := cell_order rows cols).
  set (names := map (fun c => match c with (k, i, j) => NCell (nth k prefixes 0%nat) i j end) order).
  assert (Lo : Z.of_nat (length order) = rows * zsum cols).
  { unfold order, cell_order. rewrite (flat_len _ (Z.to_nat (zsum cols))).
    - rewrite range_length. nia.
    - intros i _. apply Nat2Z.inj. rewrite (flat_app_len cols i (length cols)) by (auto; lia). rewrite firstn_all. lia. }
  destruct (rmap_ok (fun k => lift (resize 0%nat empty rows (nth k cols 0))) (fun k a => shaped a rows (nth k cols 0)) (seq 0 (length cols))) as (arrs & E1 & S1).
  { intros k Hk. apply in_seq in Hk. destruct (resize_empty 0%nat rows (nth k cols 0)) as (a & E & Sa); auto; [apply Hnth; lia|]. exists a. rewrite E. auto. }
  rewrite E1. cbn [rdo]. unfold create_variables. rewrite !repeat_length, Nat.eqb_refl. cbn [andb rdo fst snd].
  set (p' := p ++ combine names (combine (repeat None (length names)) (repeat None (length names)))).
  assert (Lp : length p' = (length p + length order)%nat).
  { unfold p'. rewrite app_length, !combine_length, !repeat_length, !Nat.min_id. unfold names. rewrite map_length. reflexivity. }
  set (num := fun k i j => Z.to_nat (Z.of_nat (length p) + i * zsum cols + zsum (firstn k cols) + j)).
  assert (IDX : forall k i j, (k < length cols)%nat -> 0 <= i < rows -> 0 <= j < nth k cols 0 ->
            index_from order (k, i, j) (length p) = num k i j /\ nth_error order (num k i j - length p) = Some (k, i, j) /\ (length p <= num k i j < length p')%nat).
  { intros k i j Hk Hi Hj. destruct (cell_at rows cols k i j ltac:(lia) Hc0 Hk Hi Hj) as (A & B & E & Hn & L). fold order in E.
    assert (num k i j = (length p + length A)%nat) as -> by (unfold num; lia).
    split; [rewrite E; apply index_skip; exact Hn|]. split.
    - rewrite E. replace (length p + length A - length p)%nat with (length A) by lia. rewrite nth_error_app2 by lia. rewrite Nat.sub_diag. reflexivity.
    - rewrite Lp, E, app_length. cbn [length]. lia. }
  destruct (rmap_ok (fun ka => lift (for_ (range 0 rows) (snd ka) (fun a i => for_ (range 0 (nth (fst ka) cols 0)) a (fun a j =>
                set_at a i j (nth (index_from order (fst ka, i, j) (length p)) (seq 0 (length p')) 0%nat)))))
    (fun ka a => cells a rows (nth (fst ka) cols 0) (num (fst ka))) (combine (seq 0 (length cols)) arrs)) as (arrs' & E2 & S2).
  { intros [k a] Hka. assert (Hk := in_combine_l _ _ _ _ Hka). apply in_seq in Hk. apply In_nth_error in Hka. destruct Hka as (n & Hka).
    assert (In (k, a) (combine (seq 0 (length cols)) arrs)) by (eapply nth_error_In; eauto).
    assert (Sa : shaped a rows (nth k cols 0)).
    { clear -S1 H. induction S1; cbn in H; [contradiction|]. destruct H as [[= <- <-]|H]; auto. }
    cbn [fst snd].
    destruct (fill_spec a rows (nth k cols 0) (fun i j => Some (nth (index_from order (k, i, j) (length p)) (seq 0 (length p')) 0%nat)) (num k) Sa) as (a' & Ea & Ca).
    { intros i j Hi Hj. destruct (IDX k i j) as (I1 & _ & I3); auto; [lia|]. rewrite I1, seq_nth by lia. reflexivity. }
    exists a'. split; [|exact Ca]. cbn [obnd] in Ea. rewrite Ea. reflexivity. }
  rewrite E2. cbn [rdo]. exists p', arrs'. split; [reflexivity|].
  assert (La : length arrs = length cols) by (rewrite <- (Forall2_len _ _ _ S1), seq_length; reflexivity).
  split. { rewrite <- (Forall2_len _ _ _ S2), combine_length, seq_length, La, Nat.min_id. reflexivity. }
  split. { unfold p'. rewrite firstn_app, Nat.sub_diag, firstn_O, app_nil_r, firstn_all. reflexivity. }
  split. { rewrite Lp. lia. }
  intros k c pre Hk Hpre.
  assert (Hlt : (k < length cols)%nat) by (apply nth_error_Some; congruence).
  assert (Ec : nth k cols 0 = c) by (apply nth_error_nth; exact Hk).
  destruct (nth_error arrs k) as [a|] eqn:Ea; [|apply nth_error_None in Ea; lia].
  destruct (Forall2_nth_error _ _ _ k (k, a) S2) as (a' & Ea' & Ca).
  { apply combine_nth_error; auto. rewrite (nth_error_nth' _ 0%nat) by (rewrite seq_length; exact Hlt). rewrite seq_nth by exact Hlt. reflexivity. }
  exists a'. split; [exact Ea'|]. cbn [fst] in Ca. rewrite Ec in Ca. split; [exact Ca|].
  intros i j Hi Hj. match goal with |- nth_error _ ?n = _ => change n with (num k i j) end. destruct (IDX k i j) as (_ & I2 & I3); auto; [lia|].
  unfold p'. rewrite nth_error_app2 by lia. apply combine_nth_error.
  - unfold names. rewrite nth_error_map, I2. cbn. do 2 f_equal. apply nth_error_nth. exact Hpre.
  - assert (num k i j - length p < length names)%nat by (unfold names; rewrite map_length; lia).
    apply combine_nth_error; apply nth_error_repeat; assumption.
Qed.
Print Assumptions C58_arrays.

Example C58_ex : exists p vars, traj_prob 3 2 true [(-(1), 1); (-(2), 2)] 5 6 = Done (p, vars) /\
  cells vars 3 3 (fun i j => Z.to_nat (i * 3 + j)) /\ nth_error p 4 = Some (NCell prefix_j 1 1, (Some (-(2)), Some 2)) /\ nth_error p 8 = Some (NDt 2, (Some 5, Some 6)).
Proof.
  destruct (C58_variables 3 2 true [(-(1), 1); (-(2), 2)] 5 6) as (p & vars & E & _ & Hc & _); try (cbn; lia).
  exists p, vars. split; [exact E|]. split; [exact Hc|]. cbn in E. injection E as <- _. split; reflexivity.
Qed.
Example C58_arrays_ex : exists p arrs, add_var_arrays (T := Z) [(NDt 0, (None, None))] 2 [1; 2] [7; 8]%nat = Done (p, arrs) /\
  map r_data arrs = [[1; 4]; [2; 3; 5; 6]]%nat /\ zsum [1; 2] = 3.
Proof. eexists. eexists. split; [vm_compute; reflexivity|]. split; reflexivity. Qed.
