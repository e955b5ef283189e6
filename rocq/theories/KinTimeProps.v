(** * Timed joint terms and the total time (C66, C95, C100) *)
From Coq Require Import ZArith List Bool Reals Lra Lia Arith.
From Verif Require Import Num NumFacts Common ModelingModel TrajoptModel KinModel KinProofs.
Import ListNotations.
Local Open Scope R_scope.

(** ** What the terms are about: x holds h joint values followed by h inverse time steps *)
Definition velocity (h : nat) (x : list R) (i : nat) : R := (nth (i + 1) x 0 - nth i x 0) * nth (h + 1 + i) x 0.
(** the i-th component of a result; joint_*_err return Ok on the inputs considered *)
Definition component (o : outcome (list R)) (i : nat) : R := match o with Ok v => nth i v 0 | _ => 0 end.

(** ** Values *)
Lemma half_even h : (2 * h / 2 = h)%nat /\ Nat.odd (2 * h) = false.
Proof.
  split; [rewrite Nat.mul_comm; apply Nat.div_mul; lia|]. rewrite Nat.odd_mul. reflexivity.
Qed.
Lemma vel_err_eq (t u l : R) x h : length x = (2 * h)%nat -> (0 < h)%nat ->
  joint_vel_err t u l x = Ok (map (fun i => - (u - (velocity h x i - t))) (seq 0 (h - 1)) ++ map (fun i => l - (velocity h x i - t)) (seq 0 (h - 1))).
Proof.
  intros Hx Hh. unfold joint_vel_err. rewrite Hx. destruct (half_even h) as [-> ->].
  destruct (Nat.eqb_spec h 0); [lia|]. cbn [orb]. cbv zeta. f_equal. rewrite !map_map. reflexivity.
Qed.
Lemma vel_err_top (t u l : R) x h i : length x = (2 * h)%nat -> (i < h - 1)%nat ->
  component (joint_vel_err t u l x) i = velocity h x i - t - u.
Proof.
  intros Hx Hi. rewrite (vel_err_eq _ _ _ x h) by lia. cbn [component]. rewrite app_nth1 by (rewrite map_length, seq_length; auto).
  rewrite nth_map_seq by auto. ring.
Qed.
Lemma vel_err_bottom (t u l : R) x h i : length x = (2 * h)%nat -> (i < h - 1)%nat ->
  component (joint_vel_err t u l x) (h - 1 + i) = l - (velocity h x i - t).
Proof.
  intros Hx Hi. rewrite (vel_err_eq _ _ _ x h) by lia. cbn [component].
  rewrite app_nth2 by (rewrite map_length, seq_length; lia). rewrite map_length, seq_length.
  replace (h - 1 + i - (h - 1))%nat with i by lia. rewrite nth_map_seq by auto. reflexivity.
Qed.

(** ** Derivatives *)
Definition dvel (h : nat) (x : list R) (k i : nat) : R :=
  (delta (i + 1) k - delta i k) * nth (h + 1 + i) x 0 + (nth (i + 1) x 0 - nth i x 0) * delta (h + 1 + i) k.
Lemma d_velocity h x k i : (k < length x)%nat -> partial (fun y => velocity h y i) x k (dvel h x k i).
Proof.
  intros Hk. unfold partial, velocity, dvel. eapply d_eq; [|apply d_mult; [apply d_minus|]; apply d_coord; auto].
  cbv beta. rewrite !coord_at. reflexivity.
Qed.

(** C66: the components of the velocity error: each finite-difference velocity against the upper limit, then
    each against the lower limit *)
Theorem C66_velocity_value : forall (target upper lower : R) (x : list R) (h : nat), length x = (2 * h)%nat -> (0 < h)%nat ->
  exists v, joint_vel_err target upper lower x = Ok v /\ length v = (2 * (h - 1))%nat /\
  (forall i, (i < h - 1)%nat -> nth i v 0 = (nth (i + 1) x 0 - nth i x 0) * nth (h + 1 + i) x 0 - (target + upper)) /\
  (forall i, (i < h - 1)%nat -> nth (h - 1 + i) v 0 = (target + lower) - (nth (i + 1) x 0 - nth i x 0) * nth (h + 1 + i) x 0) /\
  ((forall i, (i < 2 * (h - 1))%nat -> nth i v 0 <= 0) <->
   (forall i, (i < h - 1)%nat -> target + lower <= (nth (i + 1) x 0 - nth i x 0) * nth (h + 1 + i) x 0 <= target + upper)).
Proof.
  intros target upper lower x h Hx Hh. pose proof (vel_err_eq target upper lower x h Hx Hh) as E.
  assert (X : exists v, joint_vel_err target upper lower x = Ok v /\ length v = (2 * (h - 1))%nat).
  { eexists. split; [exact E|]. rewrite app_length, !map_length, !seq_length. lia. }
  clear E. destruct X as (v & E & L). exists v. split; [exact E|]. split; [exact L|].
  assert (Ht : forall i, (i < h - 1)%nat -> component (joint_vel_err target upper lower x) i = velocity h x i - (target + upper)).
  { intros i Hi. rewrite (vel_err_top _ _ _ x h) by auto. ring. }
  assert (Hb : forall i, (i < h - 1)%nat -> component (joint_vel_err target upper lower x) (h - 1 + i) = target + lower - velocity h x i).
  { intros i Hi. rewrite (vel_err_bottom _ _ _ x h) by auto. ring. }
  rewrite E in Ht, Hb. cbn [component] in Ht, Hb. split; [exact Ht|]. split; [exact Hb|]. split; intros H i Hi.
  - specialize (Ht i Hi). specialize (Hb i Hi). unfold velocity in Ht, Hb.
    assert (H1 := H i ltac:(lia)). assert (H2 := H (h - 1 + i)%nat ltac:(lia)). rewrite Ht in H1. rewrite Hb in H2. lra.
  - destruct (Nat.ltb_spec i (h - 1)).
    + rewrite Ht by auto. unfold velocity. specialize (H i ltac:(lia)). lra.
    + replace i with (h - 1 + (i - (h - 1)))%nat by lia. rewrite Hb by lia. unfold velocity. specialize (H (i - (h - 1))%nat ltac:(lia)). lra.
Qed.
Print Assumptions C66_velocity_value.
(** C66: velocity and acceleration errors exist only for an even number of values, with a step of at least one, or two *)
Theorem C66_defined : forall (target upper lower limit : R) (x : list R),
  ((exists v, joint_vel_err target upper lower x = Ok v) <-> exists h, (1 <= h)%nat /\ length x = (2 * h)%nat) /\
  ((exists v, joint_acc_err limit x = Ok v) <-> exists h, (2 <= h)%nat /\ length x = (2 * h)%nat).
Proof.
  intros target upper lower limit x.
  assert (V : forall t u l, (exists v, joint_vel_err t u l x = Ok v) <-> exists h, (1 <= h)%nat /\ length x = (2 * h)%nat).
  { intros t u l. unfold joint_vel_err. destruct (Nat.odd (length x)) eqn:O; cbn [orb].
    - split; [intros [v H]; discriminate|]. intros (h & _ & E). rewrite E in O. rewrite Nat.odd_mul in O. discriminate.
    - assert (Ev : Nat.even (length x) = true) by (rewrite <- Nat.negb_odd, O; reflexivity). apply Nat.even_spec in Ev. destruct Ev as [h Eh].
      rewrite Eh. destruct (half_even h) as [-> _]. destruct (Nat.eqb_spec h 0) as [-> | N].
      + split; [intros [v H]; discriminate|]. intros (h' & H1 & H2). lia.
      + split; [intros _; exists h; split; [lia|auto]|]. intros _. eexists. reflexivity. }
  split; [apply V|]. unfold joint_acc_err. split.
  - intros [v H]. destruct (joint_vel_err nzero nzero nzero x) as [w| |] eqn:E; try discriminate. cbn [obind] in H.
    destruct (proj1 (V nzero nzero nzero)) as (h & H1 & H2); [eauto|]. rewrite H2 in H. destruct (half_even h) as [K _]. rewrite K in H.
    destruct (Nat.ltb_spec h 2); [discriminate|]. exists h. split; auto.
  - intros (h & H1 & H2). destruct (proj2 (V nzero nzero nzero)) as [w E]; [exists h; split; [lia|auto]|]. rewrite E. cbn [obind].
    rewrite H2. destruct (half_even h) as [K _]. rewrite K. destruct (Nat.ltb_spec h 2); [lia|]. eexists. reflexivity.
Qed.
Print Assumptions C66_defined.
Example C66_defined_ex : (exists h, (1 <= h)%nat /\ length [1; 2; 3; 4; 5; 6] = (2 * h)%nat) /\ ~ exists h, (1 <= h)%nat /\ length (@nil R) = (2 * h)%nat.
Proof. split; [exists 3%nat; split; [lia|reflexivity]|]. intros (h & H1 & H2). cbn in H2. lia. Qed.

Lemma vel_jac_eq (x : list R) h : length x = (2 * h)%nat -> (0 < h)%nat -> exists top,
  joint_vel_jac x = Ok (top ++ map (map Ropp) top) /\ length top = (h - 1)%nat /\
  (forall i, (i < h - 1)%nat -> length (nth i top []) = (2 * h)%nat) /\
  (forall i k, (i < h - 1)%nat -> (k < 2 * h)%nat -> ent top i k = dvel h x k i).
Proof.
  intros Hx Hh. eexists. unfold joint_vel_jac. rewrite Hx. destruct (half_even h) as [-> _].
  destruct (Nat.eqb_spec h 0); [lia|]. cbv zeta. split; [reflexivity|]. split; [apply rows_of_length|]. split.
  - intros i Hi. rewrite rows_of_row by auto. rewrite map_length, seq_length. reflexivity.
  - intros i k Hi Hk. rewrite rows_of_ent by auto. unfold dvel, delta, el. rnum.
    replace (i + h + 1)%nat with (h + 1 + i)%nat by lia.
    destruct (Nat.eqb_spec k (h + 1 + i)), (Nat.eqb_spec k (i + 1)), (Nat.eqb_spec k i);
      repeat match goal with |- context [(?a =? ?b)%nat] => destruct (Nat.eqb_spec a b) end; try lia; cbn [IZR]; rnum; try ring.
Qed.
Lemma ent_top (top : list (list R)) i k : (i < length top)%nat -> ent (top ++ map (map Ropp) top) i k = ent top i k.
Proof. intros. unfold ent. rewrite app_nth1 by auto. reflexivity. Qed.
Lemma ent_bottom (top : list (list R)) i k : (i < length top)%nat -> (k < length (nth i top []))%nat ->
  ent (top ++ map (map Ropp) top) (length top + i) k = - ent top i k.
Proof.
  intros Hi Hk. unfold ent, el. rewrite app_nth2 by lia. replace (length top + i - length top)%nat with i by lia.
  rewrite (nth_indep _ [] (map Ropp [])) by (rewrite map_length; auto). rewrite (map_nth (map Ropp)).
  rnum. rewrite (nth_indep _ 0 (Ropp 0)) by (rewrite map_length; auto). rewrite (map_nth Ropp). reflexivity.
Qed.

(** C66: JointVelJacCalculator returns the exact partial derivatives of JointVelErrCalculator *)
Theorem C66_velocity : forall (target upper lower : R) (x : list R) (h : nat), length x = (2 * h)%nat -> (0 < h)%nat ->
  exists J, joint_vel_jac x = Ok J /\ length J = (2 * (h - 1))%nat /\
  forall i k, (i < 2 * (h - 1))%nat -> (k < 2 * h)%nat ->
    length (nth i J []) = (2 * h)%nat /\
    partial (fun y => component (joint_vel_err target upper lower y) i) x k (nth k (nth i J []) 0).
Proof.
  intros target upper lower x h Hx Hh. destruct (vel_jac_eq x h Hx Hh) as (top & E & Lt & Lr & Ht).
  eexists. split; [exact E|]. split; [rewrite app_length, map_length; lia|]. intros i k Hi Hk.
  assert (Hl : forall t, length (upd x k t) = (2 * h)%nat) by (intros; rewrite upd_length; auto).
  destruct (Nat.ltb_spec i (h - 1)) as [Hlt|Hge].
  - split; [rewrite app_nth1 by lia; apply Lr; auto|].
    change (partial (fun y => component (joint_vel_err target upper lower y) i) x k (ent (top ++ map (map Ropp) top) i k)).
    rewrite ent_top, Ht by lia. unfold partial. eapply d_ext; [|eapply d_eq; [|apply d_minus; [apply d_minus; [apply d_velocity; lia|apply (d_const target)]|apply (d_const upper)]]].
    + intros t. cbv beta. rewrite (vel_err_top _ _ _ _ h) by auto. reflexivity.
    + ring.
  - pose (m := (i - (h - 1))%nat). replace i with (h - 1 + m)%nat by lia. assert (Hm : (m < h - 1)%nat) by lia. clearbody m. clear Hge Hi i. split.
    + rewrite app_nth2 by lia. rewrite Lt. replace (h - 1 + m - (h - 1))%nat with m by lia.
      rewrite (nth_indep _ [] (map Ropp [])) by (rewrite map_length; lia). rewrite (map_nth (map Ropp)), map_length. apply Lr; auto.
    + change (partial (fun y => component (joint_vel_err target upper lower y) (h - 1 + m)) x k (ent (top ++ map (map Ropp) top) (h - 1 + m) k)).
      pose proof (ent_bottom top m k) as EB. rewrite Lt in EB. rewrite EB, Ht by (try rewrite Lr; lia). unfold partial.
      eapply d_ext; [|eapply d_eq; [|apply d_minus; [apply (d_const lower)|apply d_minus; [apply d_velocity; lia|apply (d_const target)]]]].
      * intros t. cbv beta. rewrite (vel_err_bottom _ _ _ _ h) by auto. reflexivity.
      * ring.
Qed.
Print Assumptions C66_velocity.

(** C66: the total time and its exact partial derivatives, where the inverse time step is not 0 *)
Theorem C66_time : forall (limit : R) (x : list R),
  exists v, time_cost limit x = [v] /\ v = Rsum (map Rinv x) - limit /\
  exists g, time_cost_jac x = [g] /\ length g = length x /\
  forall k, (k < length x)%nat -> nth k x 0 <> 0 -> partial (fun y => nth 0 (time_cost limit y) 0) x k (nth k g 0).
Proof.
  intros limit x. assert (V : forall y : list R, nth 0 (time_cost limit y) 0 = Rsum (map Rinv y) - limit).
  { intros y. unfold time_cost. cbn [nth]. rewrite vsum_R. rnum. f_equal. f_equal. apply map_ext. intros a. unfold Rdiv. apply Rmult_1_l. }
  eexists. split; [reflexivity|]. split; [exact (V x)|]. eexists. split; [reflexivity|]. split; [apply map_length|]. intros k Hk Hx.
  rnum. rewrite (nth_indep _ 0 (-1 * (1 / (0 * 0)))) by (rewrite map_length; auto). rewrite (map_nth (fun v => -1 * (1 / (v * v)))).
  unfold partial. eapply d_ext; [intros t; symmetry; apply V|].
  assert (M : forall y : list R, map Rinv y = map (fun i => / nth i y 0) (seq 0 (length y))).
  { induction y as [|a y IH]; cbn; auto. f_equal. rewrite IH, <- seq_shift, map_map. reflexivity. }
  eapply d_ext; [intros t; rewrite M, upd_length; reflexivity|].
  eapply d_eq; [|apply d_minus; [|apply (d_const limit)]].
  2:{ apply (d_sum (seq 0 (length x)) (fun i t => / nth i (upd x k t) 0) (fun i => if (i =? k)%nat then - / (nth k x 0 * nth k x 0) else 0)).
      intros i _. destruct (Nat.eqb_spec i k) as [->|Hn].
      - eapply d_ext; [intros t; unfold Rdiv; apply Rmult_1_l|]. eapply d_eq; [|apply d_div; [apply (d_const 1)|apply d_coord; auto|cbv beta; rewrite coord_at; auto]].
        cbv beta. rewrite coord_at. unfold delta. rewrite Nat.eqb_refl. field. auto.
      - eapply d_ext; [|apply (d_const (/ nth i x 0))]. intros t. rewrite upd_nth by auto. destruct (Nat.eqb_spec i k); [lia|]. reflexivity. }
  assert (S1 : forall (c : R) a n, (a <= k)%nat -> Rsum (map (fun i => if (i =? k)%nat then c else 0) (seq a n)) = if (k <? a + n)%nat then c else 0).
  { intros c a n; revert a; induction n as [|n IH]; intros a Ha; cbn [seq map Rsum].
    - destruct (Nat.ltb_spec k (a + 0)); [lia|reflexivity].
    - destruct (Nat.eqb_spec a k) as [->|Hn].
      + assert (Z : forall b m, (k < b)%nat -> Rsum (map (fun i => if (i =? k)%nat then c else 0) (seq b m)) = 0).
        { intros b m; revert b; induction m as [|m IHm]; intros b Hb; cbn [seq map Rsum]; auto. rewrite IHm by lia. destruct (Nat.eqb_spec b k); [lia|ring]. }
        rewrite Z by lia. destruct (Nat.ltb_spec k (k + Datatypes.S n)); [ring|lia].
      + rewrite IH by lia. replace (Datatypes.S a + n)%nat with (a + Datatypes.S n)%nat by lia. ring. }
  rewrite S1 by lia. destruct (Nat.ltb_spec k (0 + length x)); [|lia]. field. auto.
Qed.
Print Assumptions C66_time.

(** three points of one joint, inverse time steps 1, 2 and 4 *)
Example C66_ex : exists J, joint_vel_jac [1; 3; 2; 1; 2; 4] = Ok J /\ J = [[-2; 2; 0; 0; 2; 0]; [0; -4; 4; 0; 0; -1]; [2; -2; 0; 0; -2; 0]; [0; 4; -4; 0; 0; 1]] /\
  joint_vel_err 1 2 (-1) [1; 3; 2; 1; 2; 4] = Ok [1; -7; -4; 4] /\ time_cost 1 [2; 4] = [- / 4] /\ time_cost_jac [2; 4] = [[- / 4; - / 16]].
Proof.
  eexists. split; [reflexivity|]. split; [cbn; repeat f_equal; ring|]. split; [cbn; repeat f_equal; ring|].
  unfold time_cost, time_cost_jac. rewrite vsum_R. rnum. cbn [map Rsum]. split; apply (f_equal (fun v => [v])); [field|].
  repeat (apply (f_equal2 (@cons R)); [field|]). reflexivity.
Qed.
Example C66_hyps : length [1; 3; 2; 1; 2; 4] = (2 * 3)%nat /\ (0 < 3)%nat /\ nth 1 [2; 4] 0 <> 0.
Proof. cbn. split; [reflexivity|split; [lia|lra]]. Qed.

(** ** Acceleration and jerk *)
Definition total2 (h : nat) (x : list R) (i : nat) : R := nth (h + 1 + i) x 0 + nth (h + 2 + i) x 0.
Definition total3 (h : nat) (x : list R) (i : nat) : R := nth (h + 1 + i) x 0 + nth (h + 2 + i) x 0 + nth (h + 3 + i) x 0.
Definition accel (h : nat) (x : list R) (i : nat) : R := 2 * (velocity h x (i + 1) - velocity h x i) / total2 h x i.
Definition jerk (h : nat) (x : list R) (i : nat) : R := 3 * (accel h x (i + 1) - accel h x i) / total3 h x i.

Lemma vel0_nth x h i : length x = (2 * h)%nat -> (i < h - 1)%nat -> component (joint_vel_err 0 0 0 x) i = velocity h x i.
Proof. intros. rewrite (vel_err_top _ _ _ x h) by auto. ring. Qed.
Lemma vel0_ok x h : length x = (2 * h)%nat -> (0 < h)%nat -> exists v, joint_vel_err 0 0 0 x = Ok v /\ forall i, (i < h - 1)%nat -> el v i = velocity h x i.
Proof.
  intros Hx Hh. pose proof (vel_err_eq 0 0 0 x h Hx Hh) as E. eexists. split; [exact E|]. intros i Hi.
  rewrite <- (vel0_nth x h i Hx Hi), E. reflexivity.
Qed.
Lemma acc_err_eq (limit : R) x h : length x = (2 * h)%nat -> (2 <= h)%nat ->
  joint_acc_err limit x = Ok (map (fun i => accel h x i - limit) (seq 0 (h - 2))).
Proof.
  intros Hx Hh. unfold joint_acc_err. rnum. destruct (vel0_ok x h Hx) as (v & -> & Hv); [lia|]. cbn [obind]. rewrite Hx.
  destruct (half_even h) as [-> _]. destruct (Nat.ltb_spec h 2); [lia|]. f_equal. apply map_ext_in. intros i Hi. apply in_seq in Hi.
  rewrite !Hv by lia. reflexivity.
Qed.
Lemma acc_nth (limit : R) x h i : length x = (2 * h)%nat -> (i < h - 2)%nat -> component (joint_acc_err limit x) i = accel h x i - limit.
Proof. intros. rewrite (acc_err_eq _ x h) by lia. cbn [component]. rewrite nth_map_seq by auto. reflexivity. Qed.
Lemma jerk_err_eq (limit : R) x h : length x = (2 * h)%nat -> (3 <= h)%nat ->
  joint_jerk_err limit x = Ok (map (fun i => jerk h x i - limit) (seq 0 (h - 3))).
Proof.
  intros Hx Hh. unfold joint_jerk_err. rnum. rewrite (acc_err_eq _ x h) by lia. cbn [obind]. rewrite Hx.
  destruct (half_even h) as [-> _]. destruct (Nat.ltb_spec h 3); [lia|]. f_equal. apply map_ext_in. intros i Hi. apply in_seq in Hi.
  unfold el. rewrite !nth_map_seq by lia. rewrite !Rminus_0_r. reflexivity.
Qed.
Lemma jerk_nth (limit : R) x h i : length x = (2 * h)%nat -> (i < h - 3)%nat -> component (joint_jerk_err limit x) i = jerk h x i - limit.
Proof. intros. rewrite (jerk_err_eq _ x h) by lia. cbn [component]. rewrite nth_map_seq by auto. reflexivity. Qed.

Definition dacc (h : nat) (x : list R) (k i : nat) : R :=
  (2 * (dvel h x k (i + 1) - dvel h x k i) * total2 h x i - (delta (h + 1 + i) k + delta (h + 2 + i) k) * (2 * (velocity h x (i + 1) - velocity h x i)))
  / (total2 h x i * total2 h x i).
Lemma d_accel h x k i : (k < length x)%nat -> total2 h x i <> 0 -> partial (fun y => accel h y i) x k (dacc h x k i).
Proof.
  intros Hk Ht. unfold partial, accel. eapply d_eq; [|apply d_div; [apply d_scal, d_minus; apply d_velocity; auto|apply d_plus; apply d_coord; auto|]].
  - cbv beta. rewrite !upd_same. reflexivity.
  - cbv beta. rewrite upd_same. exact Ht.
Qed.
Definition djerk (h : nat) (x : list R) (k i : nat) : R :=
  (3 * (dacc h x k (i + 1) - dacc h x k i) * total3 h x i -
   (delta (h + 1 + i) k + delta (h + 2 + i) k + delta (h + 3 + i) k) * (3 * (accel h x (i + 1) - accel h x i)))
  / (total3 h x i * total3 h x i).
Lemma d_jerk h x k i : (k < length x)%nat -> total2 h x i <> 0 -> total2 h x (i + 1) <> 0 -> total3 h x i <> 0 ->
  partial (fun y => jerk h y i) x k (djerk h x k i).
Proof.
  intros Hk H1 H2 H3. unfold partial, jerk.
  eapply d_eq; [|apply d_div; [apply d_scal, d_minus; apply d_accel; auto|apply d_plus; [apply d_plus|]; apply d_coord; auto|]].
  - cbv beta. rewrite !upd_same. reflexivity.
  - cbv beta. rewrite upd_same. exact H3.
Qed.

Ltac deltas := unfold delta; repeat match goal with |- context [(?a =? ?b)%nat] => destruct (Nat.eqb_spec a b); try lia end.
(** columns a difference of velocities does not depend on *)
Lemma dvel_zero h x k i : k <> i -> k <> (i + 1)%nat -> k <> (h + 1 + i)%nat -> dvel h x k i = 0.
Proof. intros. unfold dvel. deltas. ring. Qed.
Lemma dacc_zero h x k i : k <> i -> k <> (i + 1)%nat -> k <> (i + 2)%nat -> k <> (h + 1 + i)%nat -> k <> (h + 2 + i)%nat -> dacc h x k i = 0.
Proof. intros. unfold dacc. rewrite !dvel_zero by lia. deltas. unfold Rdiv. ring. Qed.

Lemma acc_jac_eq (x : list R) h : length x = (2 * h)%nat -> (2 <= h)%nat -> exists J,
  joint_acc_jac x = Ok J /\ length J = (h - 2)%nat /\
  (forall i, (i < h - 2)%nat -> length (nth i J []) = (2 * h)%nat) /\
  (forall i k, (i < h - 2)%nat -> (k < 2 * h)%nat -> total2 h x i <> 0 -> ent J i k = dacc h x k i).
Proof.
  intros Hx Hh. unfold joint_acc_jac. rnum. destruct (vel0_ok x h Hx) as (v & -> & Hv); [lia|].
  destruct (vel_jac_eq x h Hx) as (top & -> & Lt & Lr & Htop); [lia|]. cbn [obind]. rewrite Hx.
  destruct (half_even h) as [-> _]. destruct (Nat.ltb_spec h 2); [lia|]. eexists. split; [reflexivity|].
  split; [apply rows_of_length|]. split; [intros i Hi; rewrite rows_of_row by auto; rewrite map_length, seq_length; reflexivity|].
  intros i k Hi Hk Ht. rewrite rows_of_ent by auto. rewrite !ent_top, !Htop, !Hv by lia.
  replace (i + h + 1)%nat with (h + 1 + i)%nat by lia. replace (h + 1 + i + 1)%nat with (h + 2 + i)%nat by lia.
  change (el x (h + 1 + i) + el x (h + 2 + i)) with (total2 h x i).
  unfold dacc. destruct (Nat.eqb_spec k (h + 1 + i)) as [E1|E1]; [|destruct (Nat.eqb_spec k (h + 2 + i)) as [E2|E2]]; cbn [orb].
  - replace (delta (h + 1 + i) k) with 1 by (deltas; reflexivity). replace (delta (h + 2 + i) k) with 0 by (deltas; reflexivity). field. auto.
  - replace (delta (h + 1 + i) k) with 0 by (deltas; reflexivity). replace (delta (h + 2 + i) k) with 1 by (deltas; reflexivity). field. auto.
  - replace (delta (h + 1 + i) k) with 0 by (deltas; reflexivity). replace (delta (h + 2 + i) k) with 0 by (deltas; reflexivity).
    destruct ((k =? i) || (k =? i + 1) || (k =? i + 2))%nat eqn:E3; [field; auto|].
    apply orb_false_iff in E3. destruct E3 as [E3 E5]. apply orb_false_iff in E3. destruct E3 as [E3 E4].
    apply Nat.eqb_neq in E3, E4, E5. rewrite !dvel_zero by lia. field. auto.
Qed.
Lemma jerk_jac_eq (x : list R) h : length x = (2 * h)%nat -> (3 <= h)%nat -> exists J,
  joint_jerk_jac x = Ok J /\ length J = (h - 3)%nat /\
  (forall i, (i < h - 3)%nat -> length (nth i J []) = (2 * h)%nat) /\
  (forall i k, (i < h - 3)%nat -> (k < 2 * h)%nat -> total2 h x i <> 0 -> total2 h x (i + 1) <> 0 -> total3 h x i <> 0 -> ent J i k = djerk h x k i).
Proof.
  intros Hx Hh. unfold joint_jerk_jac. rnum. rewrite (acc_err_eq 0 x h) by lia.
  destruct (acc_jac_eq x h Hx) as (aj & -> & La & Lr & Haj); [lia|]. cbn [obind]. rewrite Hx.
  destruct (half_even h) as [-> _]. destruct (Nat.ltb_spec h 3); [lia|]. eexists. split; [reflexivity|].
  split; [apply rows_of_length|]. split; [intros i Hi; rewrite rows_of_row by auto; rewrite map_length, seq_length; reflexivity|].
  intros i k Hi Hk H1 H2 H3. rewrite rows_of_ent by auto. rewrite !Haj by auto with zarith.
  unfold el. rewrite (nth_map_seq _ _ (i + 1)%nat), (nth_map_seq _ _ i) by lia.
  replace (i + h + 1)%nat with (h + 1 + i)%nat by lia. replace (h + 1 + i + 1)%nat with (h + 2 + i)%nat by lia.
  replace (h + 2 + i + 1)%nat with (h + 3 + i)%nat by lia.
  change (nth (h + 1 + i) x nzero + nth (h + 2 + i) x nzero + nth (h + 3 + i) x nzero) with (total3 h x i).
  unfold djerk.
  destruct (Nat.eqb_spec k (h + 1 + i)) as [E1|E1]; [|destruct (Nat.eqb_spec k (h + 2 + i)) as [E2|E2]; [|destruct (Nat.eqb_spec k (h + 3 + i)) as [E0|E0]]]; cbn [orb].
  - replace (delta (h + 1 + i) k) with 1 by (deltas; reflexivity). replace (delta (h + 2 + i) k) with 0 by (deltas; reflexivity).
    replace (delta (h + 3 + i) k) with 0 by (deltas; reflexivity). field. auto.
  - replace (delta (h + 1 + i) k) with 0 by (deltas; reflexivity). replace (delta (h + 2 + i) k) with 1 by (deltas; reflexivity).
    replace (delta (h + 3 + i) k) with 0 by (deltas; reflexivity). field. auto.
  - replace (delta (h + 1 + i) k) with 0 by (deltas; reflexivity). replace (delta (h + 2 + i) k) with 0 by (deltas; reflexivity).
    replace (delta (h + 3 + i) k) with 1 by (deltas; reflexivity). field. auto.
  - replace (delta (h + 1 + i) k) with 0 by (deltas; reflexivity). replace (delta (h + 2 + i) k) with 0 by (deltas; reflexivity).
    replace (delta (h + 3 + i) k) with 0 by (deltas; reflexivity).
    destruct ((k =? i) || (k =? i + 1) || (k =? i + 2) || (k =? i + 3))%nat eqn:E3; [field; auto|].
    apply orb_false_iff in E3. destruct E3 as [E3 E6]. apply orb_false_iff in E3. destruct E3 as [E3 E5]. apply orb_false_iff in E3. destruct E3 as [E3 E4].
    apply Nat.eqb_neq in E3, E4, E5, E6. rewrite !dacc_zero by lia. field. auto.
Qed.

(** the inverse time steps after the first are positive *)
Definition positive_steps (h : nat) (x : list R) : Prop := forall j, (h < j < 2 * h)%nat -> 0 < nth j x 0.
Lemma total2_pos h x i : positive_steps h x -> (i + 2 < h)%nat -> total2 h x i <> 0.
Proof. intros H Hi. unfold total2. assert (A := H (h + 1 + i)%nat ltac:(lia)). assert (B := H (h + 2 + i)%nat ltac:(lia)). lra. Qed.
Lemma total3_pos h x i : positive_steps h x -> (i + 3 < h)%nat -> total3 h x i <> 0.
Proof.
  intros H Hi. unfold total3. assert (A := H (h + 1 + i)%nat ltac:(lia)). assert (B := H (h + 2 + i)%nat ltac:(lia)). assert (C := H (h + 3 + i)%nat ltac:(lia)). lra.
Qed.

(** C95: JointAccJacCalculator and JointJerkJacCalculator return the exact partial derivatives of the values
    JointAccErrCalculator and JointJerkErrCalculator compute *)
Theorem C95_acceleration : forall (limit : R) (x : list R) (h : nat), length x = (2 * h)%nat -> (2 <= h)%nat -> positive_steps h x ->
  exists J, joint_acc_jac x = Ok J /\ length J = (h - 2)%nat /\
  forall i k, (i < h - 2)%nat -> (k < 2 * h)%nat ->
    length (nth i J []) = (2 * h)%nat /\ partial (fun y => component (joint_acc_err limit y) i) x k (nth k (nth i J []) 0).
Proof.
  intros limit x h Hx Hh Hp. destruct (acc_jac_eq x h Hx Hh) as (J & E & L & Lr & HJ). exists J. split; [exact E|]. split; [exact L|].
  intros i k Hi Hk. split; [auto|]. change (nth k (nth i J []) 0) with (ent J i k).
  assert (Ht := total2_pos h x i Hp ltac:(lia)). rewrite HJ by auto.
  unfold partial. eapply d_ext; [|eapply d_eq; [|apply d_minus; [apply d_accel; [lia|exact Ht]|apply (d_const limit)]]].
  - intros t. cbv beta. rewrite (acc_nth _ _ h) by (rewrite ?upd_length; auto). reflexivity.
  - ring.
Qed.
Print Assumptions C95_acceleration.
Theorem C95_jerk : forall (limit : R) (x : list R) (h : nat), length x = (2 * h)%nat -> (3 <= h)%nat -> positive_steps h x ->
  exists J, joint_jerk_jac x = Ok J /\ length J = (h - 3)%nat /\
  forall i k, (i < h - 3)%nat -> (k < 2 * h)%nat ->
    length (nth i J []) = (2 * h)%nat /\ partial (fun y => component (joint_jerk_err limit y) i) x k (nth k (nth i J []) 0).
Proof.
  intros limit x h Hx Hh Hp. destruct (jerk_jac_eq x h Hx Hh) as (J & E & L & Lr & HJ). exists J. split; [exact E|]. split; [exact L|].
  intros i k Hi Hk. split; [auto|]. change (nth k (nth i J []) 0) with (ent J i k).
  assert (H1 := total2_pos h x i Hp ltac:(lia)). assert (H2 := total2_pos h x (i + 1) Hp ltac:(lia)). assert (H3 := total3_pos h x i Hp ltac:(lia)).
  rewrite HJ by auto.
  unfold partial. eapply d_ext; [|eapply d_eq; [|apply d_minus; [apply d_jerk; [lia|exact H1|exact H2|exact H3]|apply (d_const limit)]]].
  - intros t. cbv beta. rewrite (jerk_nth _ _ h) by (rewrite ?upd_length; auto). reflexivity.
  - ring.
Qed.
Print Assumptions C95_jerk.

(** C95, values: the error is 2(v1-v0) over the sum of the two INVERSE time steps, minus the limit *)
Theorem C95_value : forall (limit : R) (x : list R) (h i : nat), length x = (2 * h)%nat -> (i < h - 2)%nat ->
  exists v, joint_acc_err limit x = Ok v /\ length v = (h - 2)%nat /\
  nth i v 0 = 2 * (velocity h x (i + 1) - velocity h x i) / (nth (h + 1 + i) x 0 + nth (h + 2 + i) x 0) - limit.
Proof.
  intros limit x h i Hx Hi. rewrite (acc_err_eq _ x h) by lia. eexists. split; [reflexivity|].
  split; [rewrite map_length, seq_length; reflexivity|]. rewrite nth_map_seq by auto. reflexivity.
Qed.
Print Assumptions C95_value.
(** C95: so it is not the acceleration (v1-v0)/avg(dt1, dt0) of the comment in the source, whose time steps are
    the inverses of the variables *)
Theorem C95_refuted : exists (x : list R) (h : nat), length x = (2 * h)%nat /\ positive_steps h x /\
  component (joint_acc_err 0 x) 0 <> (velocity h x 1 - velocity h x 0) / ((/ nth (h + 1) x 0 + / nth (h + 2) x 0) / 2).
Proof.
  exists [0; 0; 1; 2; 2; 2], 3%nat. split; [reflexivity|]. split.
  - intros j Hj. assert (j = 4%nat \/ j = 5%nat) as [-> | ->] by lia; cbn; lra.
  - rewrite (acc_nth 0 _ 3) by (cbn; auto). unfold accel, total2, velocity. cbn [nth Nat.add].
    replace (2 * ((1 - 0) * 2 - (0 - 0) * 2) / (2 + 2) - 0) with 1 by field.
    replace (((1 - 0) * 2 - (0 - 0) * 2) / ((/ 2 + / 2) / 2)) with 4 by field. lra.
Qed.
Print Assumptions C95_refuted.

Example C95_ex : joint_acc_err 1 [0; 1; 3; 2; 1; 2; 2; 4] = Ok [0; -8/3 - 1] /\
  exists J, joint_jerk_jac [0; 1; 3; 2; 1; 2; 2; 4] = Ok J /\ length J = 1%nat /\ positive_steps 4 [0; 1; 3; 2; 1; 2; 2; 4].
Proof.
  split.
  { rewrite (acc_err_eq 1 _ 4) by (cbn; auto). apply f_equal. unfold accel, total2, velocity. cbn [map seq Nat.sub nth Nat.add].
    repeat (apply (f_equal2 (@cons R)); [field|]). reflexivity. }
  eexists. split; [reflexivity|]. split; [reflexivity|].
  intros j Hj. assert (j = 5%nat \/ j = 6%nat \/ j = 7%nat) as [-> | [-> | ->]] by lia; cbn; lra.
Qed.

(** ** Total time, TotalTimeTermInfo::hatch *)
(** C100: with a limit the term is the excess of the total time over the limit, as a cost and as a constraint *)
Theorem C100_limit : forall (limit coeff : R) (x : list R) (err : list R), / 100000 <= Rabs limit -> time_cost limit x = err ->
  let (p, ty) := total_time_penalty limit in
  ty = INEQ /\ err_cost_value p [coeff] err = Rmax (Rsum (map Rinv x) - limit) 0 * coeff /\
  err_cnt_value [coeff] err = [(Rsum (map Rinv x) - limit) * coeff].
Proof.
  intros limit coeff x err Hl <-. destruct (C66_time limit x) as (v & -> & -> & _). unfold total_time_penalty, double_equals. rnum.
  rewrite Rminus_0_r.
  assert (D : Rdec 1 (-5) = / 100000) by (unfold Rdec; change (Pos.to_nat 5) with 5%nat; simpl; field).
  rewrite D. destruct (Rltb_spec (Rabs limit) (/ 100000)); [lra|]. split; [reflexivity|].
  unfold err_cost_value, err_cnt_value. cbn [map combine fst snd]. rewrite vsum_R. cbn [Rsum pen_value]. rewrite nmax_R. rnum. split; [ring|reflexivity].
Qed.
Print Assumptions C100_limit.
(** C100: a limit below 1e-5 counts as "no limit": the cost is the square of the total time *)
Theorem C100_cost : forall (limit coeff : R) (x : list R) (err : list R), Rabs limit < / 100000 -> time_cost limit x = err ->
  let (p, ty) := total_time_penalty limit in
  ty = EQ /\ err_cost_value p [coeff] err = (Rsum (map Rinv x) - limit) * (Rsum (map Rinv x) - limit) * coeff.
Proof.
  intros limit coeff x err Hl <-. destruct (C66_time limit x) as (v & -> & -> & _). unfold total_time_penalty, double_equals. rnum.
  rewrite Rminus_0_r.
  assert (D : Rdec 1 (-5) = / 100000) by (unfold Rdec; change (Pos.to_nat 5) with 5%nat; simpl; field).
  rewrite D. destruct (Rltb_spec (Rabs limit) (/ 100000)); [|lra]. split; [reflexivity|].
  unfold err_cost_value. cbn [map combine fst snd]. rewrite vsum_R. cbn [Rsum pen_value]. rnum. ring.
Qed.
Print Assumptions C100_cost.
Lemma times_pos (x : list R) : x <> [] -> Forall (fun s => 0 < s) x -> 0 < Rsum (map Rinv x).
Proof.
  intros Hn H. destruct H as [|s x Hs Hx]; [congruence|]. clear Hn. cbn.
  assert (0 <= Rsum (map Rinv x)); [|assert (0 < / s) by (apply Rinv_0_lt_compat; auto); lra].
  induction Hx as [|a y Ha Hy IH]; cbn; [lra|]. assert (0 < / a) by (apply Rinv_0_lt_compat; auto). lra.
Qed.
(** C100: as a constraint, the default limit 0 asks for total time 0: no trajectory with positive time steps
    satisfies it *)
Theorem C100_unsatisfiable : forall (coeff : R) (x : list R), coeff <> 0 -> x <> [] -> Forall (fun s => 0 < s) x ->
  snd (total_time_penalty (0 : R)) = EQ /\ forall v, In v (err_cnt_value [coeff] (time_cost 0 x)) -> v <> 0.
Proof.
  intros coeff x Hc Hn Hp. split.
  - unfold total_time_penalty, double_equals. rnum. rewrite Rminus_0_r, Rabs_R0.
    assert (D : Rdec 1 (-5) = / 100000) by (unfold Rdec; change (Pos.to_nat 5) with 5%nat; simpl; field).
    rewrite D. destruct (Rltb_spec 0 (/ 100000)); [reflexivity|lra].
  - destruct (C66_time 0 x) as (v & -> & -> & _). cbn. intros w [<- | []]. assert (P := times_pos x Hn Hp).
    intros E. apply Rmult_integral in E. destruct E as [E|E]; [|tauto]. lra.
Qed.
Print Assumptions C100_unsatisfiable.
(** C100: so a total-time constraint left at its default limit is violated by an ordinary trajectory *)
Theorem C100_refuted : exists x : list R, Forall (fun s => 0 < s) x /\
  snd (total_time_penalty (0 : R)) = EQ /\ err_cnt_value [1] (time_cost 0 x) = [3 / 4].
Proof.
  exists [2; 4]. split; [repeat constructor; lra|]. split; [apply (C100_unsatisfiable 1 [2]); [lra|discriminate|repeat constructor; lra]|].
  unfold time_cost, err_cnt_value. rewrite vsum_R. rnum. cbn [map Rsum combine fst snd]. apply (f_equal (fun v => [v])). field.
Qed.
Print Assumptions C100_refuted.
Example C100_ex : (/ 100000 <= Rabs 3) /\ Rabs (0 : R) < / 100000 /\ (1 : R) <> 0 /\ Forall (fun s : R => 0 < s) [2; 4] /\ time_cost 0 [2; 4] = [3 / 4].
Proof.
  rewrite Rabs_R0, Rabs_pos_eq by lra. split; [lra|]. split; [lra|]. split; [lra|]. split; [repeat constructor; lra|].
  unfold time_cost. rewrite vsum_R. rnum. cbn [map Rsum]. apply (f_equal (fun v => [v])). field.
Qed.
