(** * Lemmas about ConstructProblem for joint space problems with time *)
From Coq Require Import List ZArith Bool Arith Reals Lra Lia Permutation.
From Verif Require ExprsProps.
From Verif Require Import Num NumFacts RSums Common BackendModel SolveModel SolveSpec ScoExprModel ScoExprProofs ModelingModel ModelingSpec ModelingProofs ArrayModel ArrayProps TrajCostModel ScoOptModel MeritModel MeritSpec RunModel RunSpec TrajCostProps TrajoptModel LayoutProps HatchProps ConstructProps KinModel KinProofs KinTimeProps PlanModel PlanSpec PlanProofs TimedModel TimedSpec.
Import ListNotations.
Local Open Scope R_scope.

(** ** Costs and constraints on error functions *)
Lemma err_rows (coeffs y : list R) (rows : list (list R)) t : coeffs <> [] -> In t (combine (combine y rows) (err_weights coeffs (length rows))) ->
  In (snd (fst t)) rows /\ forall w, snd t = Some w -> exists k, (k < length y)%nat /\ fst (fst t) = nth k y 0 /\ snd (fst t) = nth k rows [] /\ w = nth k coeffs 0.
Proof.
  intros Hc Hin. split.
  - destruct t as [[a r] o]. apply in_combine_l, in_combine_r in Hin. exact Hin.
  - intros w Hw. destruct coeffs as [|c cs]; [congruence|]. cbn [err_weights] in Hin. set (cs' := c :: cs) in *. clearbody cs'. clear Hc.
    revert rows cs' Hin. induction y as [|y0 y IH]; intros [|r rows] [|c0 cs0] Hin; try destruct Hin as [].
    + subst t. cbn [fst snd] in *. exists 0%nat. cbn. split; [lia|]. split; [reflexivity|]. split; [reflexivity|]. rnum. destruct (Reqb c0 0); congruence.
    + cbn [combine map] in H. destruct (IH rows cs0 H) as (k & K1 & K2 & K3 & K4). exists (S k). cbn. split; [lia|]. auto.
Qed.
Definition err_small (inf : R) (coeffs y xv : list R) (rows : list (list R)) : Prop :=
  forall k, (k < length y)%nat -> Rabs ((nth k y 0 - vdot (nth k rows []) xv) * nth k coeffs 0) < inf.
Lemma scale_small inf y0 r (xv : list R) vs w : Rabs ((y0 - vdot r xv) * w) < inf -> small inf (aff_scale (aff_from_val_grad y0 xv r vs) w).
Proof. intros H. apply Rabs_def2 in H. unfold small, aff_scale, aff_from_val_grad, aff_cleanup. cbn [a_const]. rnum. lra. Qed.
Lemma err_cost_small n inf p (coeffs y xv : list R) rows vs : coeffs <> [] -> Forall (fun v => (v < n)%nat) vs -> Forall (fun r => length r = length vs) rows -> err_small inf coeffs y xv rows ->
  Forall (fun o => op_ok n o /\ op_small inf o) (err_cost_ops p coeffs y xv rows vs).
Proof.
  intros Hc Hv Hr Hs. pose proof (err_ops_ok n p coeffs y xv rows vs Hv Hr) as H1. rewrite Forall_forall in H1 |- *. intros o Ho. split; [apply H1, Ho|].
  unfold err_cost_ops in Ho. apply in_flat_map in Ho as (t & Ht & Ho). destruct (err_rows _ _ _ t Hc Ht) as [_ K]. destruct (snd t) as [w|] eqn:Ew; [|destruct Ho]. destruct (K w eq_refl) as (k & K1 & K2 & K3 & K4).
  destruct Ho as [<-|[]]. specialize (Hs k K1). rewrite <- K2, <- K3, <- K4 in Hs. destruct p; cbn [err_cost_row op_small]; [exact I| |]; apply scale_small, Hs.
Qed.
Lemma err_cnt_small n inf (coeffs y xv : list R) rows vs : coeffs <> [] -> Forall (fun v => (v < n)%nat) vs -> Forall (fun r => length r = length vs) rows -> err_small inf coeffs y xv rows ->
  Forall (fun a => aff_in n a /\ small inf a) (err_cnt_affs coeffs y xv rows vs).
Proof.
  intros Hc Hv Hr Hs. rewrite Forall_forall in Hr |- *. intros a Ha. unfold err_cnt_affs in Ha. apply in_flat_map in Ha as (t & Ht & Ha). destruct (err_rows _ _ _ t Hc Ht) as [Kr K]. destruct (snd t) as [w|] eqn:Ew; [|destruct Ha].
  destruct (K w eq_refl) as (k & K1 & K2 & K3 & K4). destruct coeffs as [|c cs]; [congruence|]. destruct Ha as [<-|[]]. specialize (Hs k K1). rewrite <- K2, <- K3, <- K4 in Hs. split; [|apply scale_small, Hs].
  apply aff_in_scale, val_grad_in; [apply Hr, Kr|exact Hv].
Qed.
Lemma rep_cost p c (y : list R) : err_cost_value p (repeat c (length y)) y = rsum (fun a => c * pen_R p a) y.
Proof.
  rewrite err_cost_value_R. destruct y as [|a y]; [reflexivity|]. change (weights (repeat c (length (a :: y))) (length (a :: y))) with (repeat c (length (a :: y))). generalize (a :: y). clear.
  induction l as [|a l IH]; [reflexivity|]. cbn [length repeat combine]. rewrite !rsum_cons, IH. reflexivity.
Qed.
Lemma rep_viol ty c (y : list R) : cnt_violation ty (err_cnt_value (repeat c (length y)) y) = rsum (fun a => match ty with EQ => Rabs (c * a) | INEQ => Rmax (c * a) 0 end) y.
Proof.
  unfold cnt_violation, cnt_violations. rewrite vsum_R. destruct y as [|a y]; [destruct ty; reflexivity|].
  change (err_cnt_value (repeat c (length (a :: y))) (a :: y)) with (map (fun pc => fst pc * snd pc) (combine (a :: y) (repeat c (length (a :: y))))). generalize (a :: y). clear.
  intros l. destruct ty; rewrite map_map; (induction l as [|a l IH]; [reflexivity|]); cbn [length repeat combine map Rsum]; rewrite IH, rsum_cons; f_equal; cbn [fst snd]; rnum.
  - f_equal. ring.
  - unfold pospart. rewrite nmax_R || idtac. rnum. rewrite (Rmult_comm a c). destruct (Rltb_spec 0 (c * a)); [rewrite Rmax_left by lra; reflexivity|rewrite Rmax_right by lra; reflexivity] || reflexivity.
Qed.

(** ** The velocity of a joint *)
Lemma vel_dot (x : list R) h i : length x = (2 * h)%nat -> (i < h - 1)%nat -> bigsum (2 * h) (fun k => dvel h x k i * nth k x 0) = 2 * velocity h x i.
Proof.
  intros Hx Hi. unfold dvel.
  rewrite (bigsum_ext _ _ (fun k => nth (h + 1 + i) x 0 * (delta (i + 1) k * nth k x 0) + (- nth (h + 1 + i) x 0 * (delta i k * nth k x 0) + (nth (i + 1) x 0 - nth i x 0) * (delta (h + 1 + i) k * nth k x 0)))) by (intros; ring).
  rewrite !bigsum_plus, !bigsum_scal.
  assert (D : forall a, (a < 2 * h)%nat -> bigsum (2 * h) (fun k => delta a k * nth k x 0) = nth a x 0).
  { intros a Ha. rewrite (bigsum_single _ _ a Ha); unfold delta; [rewrite Nat.eqb_refl; lra|]. intros k _ Hk. destruct (Nat.eqb_spec a k); [congruence|]. destruct (Nat.eqb_spec k a); [congruence|]. lra. }
  rewrite !D by lia. unfold velocity. ring.
Qed.
Lemma vel_consts target upper lower (x : list R) h c inf : length x = (2 * h)%nat -> (0 < h)%nat ->
  (forall i, (i < h - 1)%nat -> Rabs (c * (velocity h x i + (target + upper))) < inf /\ Rabs (c * (velocity h x i + (target + lower))) < inf) ->
  exists y rows, joint_vel_err target upper lower x = Ok y /\ joint_vel_jac x = Ok rows /\ length y = (2 * (h - 1))%nat /\
    y = map (fun i => - (upper - (velocity h x i - target))) (seq 0 (h - 1)) ++ map (fun i => lower - (velocity h x i - target)) (seq 0 (h - 1)) /\
    Forall (fun r => length r = (2 * h)%nat) rows /\ err_small inf (repeat c (2 * (h - 1))) y x rows.
Proof.
  intros Hx Hh Hb. destruct (vel_jac_eq x h Hx Hh) as (top & Ej & Lt & Lr & Ht). do 2 eexists. split; [apply (vel_err_eq target upper lower x h Hx Hh)|]. split; [exact Ej|].
  split; [rewrite app_length, !map_length, seq_length; lia|]. split; [reflexivity|]. split.
  - apply Forall_app. assert (F : Forall (fun r => length r = (2 * h)%nat) top) by (apply Forall_forall; intros r Hr; destruct (In_nth _ _ [] Hr) as (i & Hi & <-); apply Lr; lia).
    split; [exact F|]. rewrite Forall_map. eapply Forall_impl; [|exact F]. intros r E. cbn beta in E |- *. rewrite map_length. exact E.
  - assert (V : forall i, (i < h - 1)%nat -> vdot (nth i top []) x = 2 * velocity h x i).
    { intros i Hi. rewrite (ExprsProps.vdot_bigsum (2 * h)) by (rewrite ?Lr by exact Hi; auto). rewrite <- (vel_dot x h i Hx Hi). apply bigsum_ext. intros k Hk. rewrite <- (Ht i k Hi Hk). reflexivity. }
    intros k Hk. rewrite app_length, !map_length, seq_length in Hk. rewrite (nth_indep (repeat c _) 0 c) by (rewrite repeat_length; lia). rewrite nth_repeat.
    destruct (Nat.lt_ge_cases k (h - 1)) as [H|H].
    + rewrite !app_nth1 by (rewrite ?map_length, ?seq_length; lia). rewrite nth_map_seq by exact H. rewrite (V k H). destruct (Hb k H) as [B _].
      rewrite <- Rabs_Ropp. match goal with |- Rabs ?a < _ => replace a with (c * (velocity h x k + (target + upper))) by ring end. exact B.
    + rewrite !app_nth2 by (rewrite ?map_length, ?seq_length; lia). rewrite !map_length, seq_length, Lt. set (i := (k - (h - 1))%nat). assert (Hi : (i < h - 1)%nat) by lia. rewrite nth_map_seq by exact Hi.
      rewrite (nth_indep _ [] (map Ropp [])) by (rewrite map_length; lia). rewrite (map_nth (map Ropp)). destruct (Hb i Hi) as [_ B].
      assert (N : forall l, vdot (map Ropp l) x = - vdot l x).
      { intros l. rewrite !vdot_rsum. clear. revert x. induction l as [|a l IH]; intros [|b x]; cbn [map combine]; rewrite ?rsum_nil; try lra. rewrite !rsum_cons, IH. cbn [fst snd]. lra. }
      rewrite N, (V i Hi). match goal with |- Rabs ?a < _ => replace a with (c * (velocity h x i + (target + lower))) by ring end. exact B.
Qed.

(** ** The objects of a part *)
Section Parts.
  Context (inf big quick least : R) (m : Z) (d : nat) (f : Z -> Z -> nat) (nv : nat).
  Hypothesis Hf : forall i j, (0 <= i < m)%Z -> (0 <= j <= Z.of_nat d)%Z -> (f i j < nv)%nat.
  Hypothesis Hd : (1 <= d)%nat.
  Hypothesis Hm : (1 <= m)%Z.
  Hypothesis Hl : 0 < least.
  Local Notation X x := (fun i j => nth (f i j) x 0).
  Definition column (t : order * jterm R) (c : Z) : list nat := map (fun k => f (first_step m t + Z.of_nat k)%Z c) (seq 0 (Z.to_nat (last_step m t - first_step m t + 1))).
  Definition times : list nat := map (fun k => f (Z.of_nat k + 1)%Z (Z.of_nat d)) (seq 0 (Z.to_nat (m - 1))).
  Definition part_obj (s : side) (q : part) (o : tobj) : Prop :=
    match q with
    | PJoint t => exists a, o = OJoint a /\ object m d t f s a
    | PSpeed t j => exists e, (e = true <-> is_exact d t) /\ (0 <= first_step m t < last_step m t)%Z /\ (last_step m t < m)%Z /\
        o = OErr {| er_side := s; er_eq := e; er_vars := column t j ++ column t (Z.of_nat d); er_coeffs := repeat (coeff d t j) (2 * Z.to_nat (last_step m t - first_step m t));
                    er_fun := joint_vel_err (target d t j) (upper d t j) (lower d t j); er_jac := joint_vel_jac |}
    | PTime c l => exists e, (e = true <-> Rabs l < / 100000) /\
        o = OErr {| er_side := s; er_eq := e; er_vars := times; er_coeffs := [c]; er_fun := fun x => Ok (time_cost l x); er_jac := fun x => Ok (time_cost_jac x) |}
    end.
  Definition part_ok (ty : Z) (q : part) : Prop :=
    match q with
    | PJoint t => term_ok m d t inf ty
    | PSpeed t j => (0 <= j < Z.of_nat d)%Z /\ Rabs (coeff d t j) * (2 * big * quick + Rabs (target d t j + upper d t j)) < inf /\ Rabs (coeff d t j) * (2 * big * quick + Rabs (target d t j + lower d t j)) < inf
    | PTime c l => Rabs c * (2 * (IZR m / least) + Rabs l) < inf
    end.
  Definition point_ok (x : list R) : Prop := forall i, (0 <= i < m)%Z -> (forall j, (0 <= j < Z.of_nat d)%Z -> Rabs (X x i j) <= big) /\ least <= X x i (Z.of_nat d) <= quick.

  (** velocities *)
  Section Speed.
    Context (t : order * jterm R) (j : Z) (x : list R).
    Hypothesis Hr : (0 <= first_step m t < last_step m t)%Z /\ (last_step m t < m)%Z.
    Hypothesis Hj : (0 <= j < Z.of_nat d)%Z.
    Local Notation h := (Z.to_nat (last_step m t - first_step m t + 1)).
    Local Notation n := (Z.to_nat (last_step m t - first_step m t)).
    Local Notation y := (get_vec x (column t j ++ column t (Z.of_nat d))).
    Lemma col_length c : length (column t c) = h.
    Proof. unfold column. rewrite map_length, seq_length. reflexivity. Qed.
    Lemma y_length : length y = (2 * h)%nat.
    Proof. unfold get_vec. rewrite map_length, app_length, !col_length. lia. Qed.
    Lemma y_nth k : (k < h)%nat -> nth k y 0 = X x (first_step m t + Z.of_nat k)%Z j /\ nth (h + k) y 0 = X x (first_step m t + Z.of_nat k)%Z (Z.of_nat d).
    Proof.
      intros Hk. unfold get_vec. rewrite map_app. split.
      - rewrite app_nth1 by (rewrite map_length, col_length; exact Hk). unfold column. rewrite map_map. rewrite nth_map_seq by exact Hk. reflexivity.
      - rewrite app_nth2 by (rewrite map_length, col_length; lia). rewrite map_length, col_length. replace (h + k - h)%nat with k by lia. unfold column. rewrite map_map. rewrite nth_map_seq by exact Hk. reflexivity.
    Qed.
    Lemma velocity_is i : (i < n)%nat -> velocity h y i = speed d (X x) (first_step m t + Z.of_nat i) j.
    Proof.
      intros Hi. unfold velocity, speed, step_time. destruct (y_nth (i + 1)) as [-> A]; [lia|]. destruct (y_nth i) as [-> _]; [lia|]. replace (h + 1 + i)%nat with (h + (i + 1))%nat by lia. rewrite A.
      replace (first_step m t + Z.of_nat (i + 1))%Z with (first_step m t + Z.of_nat i + 1)%Z by lia. unfold Rdiv. rewrite Rinv_inv. reflexivity.
    Qed.
    Lemma speed_bound i : point_ok x -> (0 <= i)%Z -> (i + 1 < m)%Z -> Rabs (speed d (X x) i j) <= 2 * big * quick.
    Proof.
      intros P H0 H1. unfold speed, step_time, Rdiv. rewrite Rinv_inv, Rabs_mult. destruct (P (i + 1)%Z ltac:(lia)) as [A [B1 B2]]. destruct (P i ltac:(lia)) as [A' _]. specialize (A j Hj). specialize (A' j Hj). cbn beta in *.
      rewrite (Rabs_right (nth _ x 0)) by lra. pose proof (Rabs_triang (nth (f (i + 1)%Z j) x 0) (- nth (f i j) x 0)) as T. rewrite Rabs_Ropp in T. pose proof (Rabs_pos (nth (f (i + 1)%Z j) x 0 + - nth (f i j) x 0)). unfold Rminus.
      apply Rmult_le_compat; lra.
    Qed.
    Lemma speed_err : joint_vel_err (target d t j) (upper d t j) (lower d t j) y =
      Ok (map (fun k => fast d t (X x) (first_step m t + Z.of_nat k) j) (seq 0 n) ++ map (fun k => slow d t (X x) (first_step m t + Z.of_nat k) j) (seq 0 n)).
    Proof.
      rewrite (vel_err_eq _ _ _ _ h y_length) by lia. replace (h - 1)%nat with n by lia. f_equal. f_equal; apply map_ext_in; intros i Hi; apply in_seq in Hi; rewrite velocity_is by lia; unfold fast, slow; ring.
    Qed.
    Lemma speed_consts : point_ok x -> Rabs (coeff d t j) * (2 * big * quick + Rabs (target d t j + upper d t j)) < inf -> Rabs (coeff d t j) * (2 * big * quick + Rabs (target d t j + lower d t j)) < inf ->
      exists e rows, joint_vel_err (target d t j) (upper d t j) (lower d t j) y = Ok e /\ joint_vel_jac y = Ok rows /\ Forall (fun r => length r = length (column t j ++ column t (Z.of_nat d))) rows /\ err_small inf (repeat (coeff d t j) (2 * n)) e y rows.
    Proof.
      intros P B1 B2. destruct (vel_consts (target d t j) (upper d t j) (lower d t j) y h (coeff d t j) inf y_length ltac:(lia)) as (e & rows & E1 & E2 & _ & _ & L & S0).
      - intros i Hi. rewrite velocity_is by lia. pose proof (speed_bound (first_step m t + Z.of_nat i) P ltac:(lia) ltac:(lia)) as V. set (v := speed _ _ _ _) in *.
        assert (G : forall a, Rabs (coeff d t j) * (2 * big * quick + Rabs a) < inf -> Rabs (coeff d t j * (v + a)) < inf); [|split; apply G; assumption].
        intros a Ha. rewrite Rabs_mult. eapply Rle_lt_trans; [|exact Ha]. apply Rmult_le_compat_l; [apply Rabs_pos|]. pose proof (Rabs_triang v a). lra.
      - exists e, rows. split; [exact E1|]. split; [exact E2|]. split; [rewrite app_length, !col_length; eapply Forall_impl; [|exact L]; cbn beta; intros; lia|]. replace (2 * n)%nat with (2 * (h - 1))%nat by lia. exact S0.
    Qed.
  End Speed.

  (** the total time *)
  Lemma times_vec x : get_vec x times = map (fun k => X x (Z.of_nat k + 1)%Z (Z.of_nat d)) (seq 0 (Z.to_nat (m - 1))).
  Proof. unfold get_vec, times. rewrite map_map. reflexivity. Qed.
  Lemma rsum_Rsum (l : list R) : Rsum l = rsum (fun v => v) l.
  Proof. induction l as [|a l IH]; [reflexivity|]. cbn [Rsum]. rewrite rsum_cons, IH. reflexivity. Qed.
  Lemma time_is x l : time_cost l (get_vec x times) = [duration m d (X x) - l].
  Proof.
    destruct (C66_time l (get_vec x times)) as (v & -> & -> & _). do 2 f_equal. rewrite times_vec, map_map, rsum_Rsum, rsum_map. unfold duration, bigsum, step_time. reflexivity.
  Qed.
  Lemma time_consts x c l : point_ok x -> Rabs c * (2 * (IZR m / least) + Rabs l) < inf ->
    Forall (fun r => length r = length times) (time_cost_jac (get_vec x times)) /\ err_small inf [c] (time_cost l (get_vec x times)) (get_vec x times) (time_cost_jac (get_vec x times)).
  Proof.
    intros P B. split; [constructor; [|constructor]; rewrite map_length; unfold get_vec; apply map_length|]. intros k Hk. rewrite time_is in Hk |- *. destruct k; [|cbn in Hk; lia]. unfold time_cost_jac. cbn [nth].
    set (D := duration m d (X x)).
    assert (E : vdot (map (fun v => nofZ (-1) * (none_ / (v * v)))%num (get_vec x times)) (get_vec x times) = - D).
    { rewrite vdot_rsum. unfold D, duration, bigsum, step_time. rewrite times_vec, map_map. generalize (seq 0 (Z.to_nat (m - 1))). intros ks. induction ks as [|k ks IH]; [cbn; rewrite !rsum_nil; lra|].
      cbn [map combine]. rewrite !rsum_cons, IH. cbn [fst snd]. rnum. set (a := nth _ x 0). destruct (Req_dec a 0) as [->|N]; [rewrite !Rmult_0_r, Rinv_0; lra|]. field. exact N. }
    rewrite E. assert (K : Rabs D <= IZR m / least).
    { unfold D, duration. assert (G : forall n, (Z.of_nat n + 1 <= m)%Z -> Rabs (bigsum n (fun k => step_time d (X x) (Z.of_nat k + 1))) <= INR n / least).
      { induction n as [|n IH]; intros Hn; [rewrite bigsum_0, Rabs_R0; cbn; unfold Rdiv; lra|]. rewrite bigsum_S, S_INR. eapply Rle_trans; [apply Rabs_triang|]. specialize (IH ltac:(lia)).
        assert (Rabs (step_time d (X x) (Z.of_nat n + 1)) <= / least).
        { unfold step_time. destruct (P (Z.of_nat n + 1)%Z ltac:(lia)) as [_ [B1 _]]. cbn beta in B1. rewrite Rabs_right by (apply Rle_ge, Rlt_le, Rinv_0_lt_compat; lra). apply Rinv_le_contravar; lra. }
        unfold Rdiv in *. lra. }
      eapply Rle_trans; [apply G; lia|]. apply Rmult_le_compat_r; [apply Rlt_le, Rinv_0_lt_compat, Hl|]. rewrite INR_IZR_INZ. apply IZR_le. lia. }
    replace ((D - l - - D) * c) with (c * (2 * D + - l)) by ring. rewrite Rabs_mult. eapply Rle_lt_trans; [|exact B]. apply Rmult_le_compat_l; [apply Rabs_pos|].
    eapply Rle_trans; [apply Rabs_triang|]. rewrite Rabs_Ropp, Rabs_mult, (Rabs_right 2) by lra. lra.
  Qed.

  Lemma nonempty_coeffs c n : (0 < n)%nat -> repeat c n <> ([] : list R).
  Proof. destruct n; [lia|discriminate]. Qed.
  Lemma column_lt t c : (0 <= first_step m t < last_step m t)%Z /\ (last_step m t < m)%Z -> (0 <= c <= Z.of_nat d)%Z -> Forall (fun v => (v < nv)%nat) (column t c).
  Proof. intros Hr Hc. unfold column. rewrite Forall_map. apply Forall_forall. intros k Hk. apply in_seq in Hk. apply Hf; lia. Qed.
  Lemma times_lt : Forall (fun v => (v < nv)%nat) times.
  Proof. unfold times. rewrite Forall_map. apply Forall_forall. intros k Hk. apply in_seq in Hk. apply Hf; lia. Qed.
  Lemma Hf' : forall i j, (0 <= i < m)%Z -> (0 <= j < Z.of_nat d)%Z -> (f i j < nv)%nat.
  Proof. intros i j Hi Hj. apply Hf; lia. Qed.
  Lemma rsum_two {A} (g : A -> R) (a b : nat -> A) n : rsum g (map a (seq 0 n) ++ map b (seq 0 n)) = bigsum n (fun k => g (a k) + g (b k)).
  Proof. rewrite rsum_app, !rsum_map, bigsum_plus. reflexivity. Qed.
  Lemma two_length {A} (a b : nat -> A) n : length (map a (seq 0 n) ++ map b (seq 0 n)) = (2 * n)%nat.
  Proof. rewrite app_length, !map_length, seq_length. lia. Qed.
  Lemma pen_values a : pen_R SQUARED a = a * a /\ pen_R HINGE a = Rmax a 0.
  Proof. split; [reflexivity|]. cbn. reflexivity. Qed.

  Lemma part_cost_value q o x : part_obj SideCost q o -> part_ok TT_COST q -> exists v, tcost_value o x = Ok v /\ part_cost m d q (X x) v.
  Proof.
    intros Ho Hp. destruct q as [t|t j|c l]; cbn [part_obj part_ok part_cost] in *.
    - destruct Ho as (a & -> & Ho). destruct (cost_facts inf m d t TT_COST f nv Hp Hd Hf' a x Ho) as (v & E & V & _). exists v. split; [exact E|exact V].
    - destruct Ho as (e & He & Hr1 & Hr2 & ->). destruct Hp as (Hj & _). cbn [tcost_value er_fun er_vars er_eq er_coeffs]. rewrite (speed_err t j x (conj Hr1 Hr2)). cbn [obind]. eexists. split; [reflexivity|].
      rewrite <- (two_length (fun k => fast d t (X x) (first_step m t + Z.of_nat k) j) (fun k => slow d t (X x) (first_step m t + Z.of_nat k) j)). rewrite rep_cost, rsum_two. unfold over_steps.
      destruct e; (split; intros Ex; [|try (exfalso; apply Ex, He; reflexivity)]); try (apply He in Ex; discriminate); apply bigsum_ext; intros k Hk; destruct (pen_values (fast d t (X x) (first_step m t + Z.of_nat k) j)) as [A1 A2]; destruct (pen_values (slow d t (X x) (first_step m t + Z.of_nat k) j)) as [B1 B2]; rewrite ?A1, ?A2, ?B1, ?B2; reflexivity.
    - destruct Ho as (e & He & ->). cbn [tcost_value er_fun er_vars er_eq er_coeffs]. rewrite time_is. cbn [obind]. eexists. split; [reflexivity|]. change [c] with (repeat c (length [duration m d (X x) - l])). rewrite rep_cost, rsum_cons, rsum_nil, Rplus_0_r.
      destruct (pen_values (duration m d (X x) - l)) as [A1 A2]. destruct e; (split; intros Ex; [|try (exfalso; apply Ex, He; reflexivity)]); try (apply He in Ex; discriminate); rewrite ?A1, ?A2; reflexivity.
  Qed.
  Lemma part_viol_value q o x : part_obj SideCnt q o -> part_ok TT_CNT q -> exists v, tcnt_viol o x = Ok v /\ part_viol m d q (X x) v.
  Proof.
    intros Ho Hp. destruct q as [t|t j|c l]; cbn [part_obj part_ok part_viol] in *.
    - destruct Ho as (a & -> & Ho). destruct (cnt_facts inf m d t TT_CNT f nv Hp Hd Hf' a x Ho) as (v & E & V & _). exists v. split; [exact E|exact V].
    - destruct Ho as (e & He & Hr1 & Hr2 & ->). destruct Hp as (Hj & _). cbn [tcnt_viol er_fun er_vars er_eq er_coeffs]. rewrite (speed_err t j x (conj Hr1 Hr2)). cbn [obind]. eexists. split; [reflexivity|].
      rewrite <- (two_length (fun k => fast d t (X x) (first_step m t + Z.of_nat k) j) (fun k => slow d t (X x) (first_step m t + Z.of_nat k) j)). rewrite rep_viol, rsum_two. unfold over_steps.
      destruct e; (split; intros Ex; [|try (exfalso; apply Ex, He; reflexivity)]); try (apply He in Ex; discriminate); reflexivity.
    - destruct Ho as (e & He & ->). cbn [tcnt_viol er_fun er_vars er_eq er_coeffs]. rewrite time_is. cbn [obind]. eexists. split; [reflexivity|]. change [c] with (repeat c (length [duration m d (X x) - l])). rewrite rep_viol, rsum_cons, rsum_nil, Rplus_0_r.
      destruct e; (split; intros Ex; [|try (exfalso; apply Ex, He; reflexivity)]); try (apply He in Ex; discriminate); reflexivity.
  Qed.
  Lemma part_cost_convex q o x : part_obj SideCost q o -> part_ok TT_COST q -> point_ok x -> exists ops, tcost_convex o x = Ok ops /\ Forall (fun o => op_ok nv o /\ op_small inf o) ops.
  Proof.
    intros Ho Hp Px. destruct q as [t|t j|c l]; cbn [part_obj part_ok] in *.
    - destruct Ho as (a & -> & Ho). destruct (cost_facts inf m d t TT_COST f nv Hp Hd Hf' a x Ho) as (v & _ & _ & _ & F0). eexists. split; [reflexivity|exact F0].
    - destruct Ho as (e & He & Hr1 & Hr2 & ->). destruct Hp as (Hj & B1 & B2). destruct (speed_consts t j x (conj Hr1 Hr2) Hj Px B1 B2) as (y & rows & E1 & E2 & L & S0).
      cbn [tcost_convex er_fun er_jac er_vars er_eq er_coeffs]. rewrite E2. cbn [obind]. rewrite E1. cbn [obind]. eexists. split; [reflexivity|]. apply err_cost_small; [apply nonempty_coeffs; lia| |exact L|exact S0].
      apply Forall_app. split; apply column_lt; (split; assumption) || lia.
    - destruct Ho as (e & He & ->). destruct (time_consts x c l Px Hp) as [L S0]. cbn [tcost_convex er_fun er_jac er_vars er_eq er_coeffs obind]. eexists. split; [reflexivity|]. apply err_cost_small; [discriminate|exact times_lt|exact L|exact S0].
  Qed.
  Lemma part_cnt_convex q o x : part_obj SideCnt q o -> part_ok TT_CNT q -> point_ok x ->
    exists cc, tcnt_convex o x = Ok cc /\ Forall (fun e => aff_in nv e /\ small inf e) (cc_eqs cc ++ cc_ineqs cc).
  Proof.
    assert (G : forall (e : bool) coeffs y xv rows vs, Forall (fun a => aff_in nv a /\ small inf a) (err_cnt_affs coeffs y xv rows vs) ->
      let cc := err_cnt_convex (if e then EQ else INEQ) coeffs y xv rows vs in Forall (fun a => aff_in nv a /\ small inf a) (cc_eqs cc ++ cc_ineqs cc)).
    { intros e coeffs y xv rows vs F0. unfold err_cnt_convex. destruct e; cbn [cc_eqs cc_ineqs]; rewrite ?app_nil_r; exact F0. }
    intros Ho Hp Px. destruct q as [t|t j|c l]; cbn [part_obj part_ok] in *.
    - destruct Ho as (a & -> & Ho). destruct (cnt_facts inf m d t TT_CNT f nv Hp Hd Hf' a x Ho) as (v & _ & _ & F0 & _). eexists. split; [reflexivity|exact F0].
    - destruct Ho as (e & He & Hr1 & Hr2 & ->). destruct Hp as (Hj & B1 & B2). destruct (speed_consts t j x (conj Hr1 Hr2) Hj Px B1 B2) as (y & rows & E1 & E2 & L & S0).
      cbn [tcnt_convex er_fun er_jac er_vars er_eq er_coeffs]. rewrite E2. cbn [obind]. rewrite E1. cbn [obind]. eexists. split; [reflexivity|]. apply G, err_cnt_small; [apply nonempty_coeffs; lia| |exact L|exact S0].
      apply Forall_app. split; apply column_lt; (split; assumption) || lia.
    - destruct Ho as (e & He & ->). destruct (time_consts x c l Px Hp) as [L S0]. cbn [tcnt_convex er_fun er_jac er_vars er_eq er_coeffs obind]. eexists. split; [reflexivity|]. apply G, err_cnt_small; [discriminate|exact times_lt|exact L|exact S0].
  Qed.
  Lemma part_sides s q o ty : part_obj s q o -> part_ok ty q -> (tis_cost o = match s with SideCost => true | SideCnt => false end) /\
    (s = SideCost -> tis_cnt true o = false /\ tis_cnt false o = false) /\ (s = SideCnt -> (tis_cnt true o = true <-> part_exact d q) /\ tis_cnt false o = negb (tis_cnt true o)).
  Proof.
    intros Ho Hp. destruct q as [t|t j|c l]; cbn [part_obj part_exact] in *.
    - destruct Ho as (a & -> & jv & e & -> & _ & He). cbn [tis_cost tis_cnt is_cost is_cnt]. destruct s; (split; [reflexivity|]); (split; [|]); intros Es; try discriminate Es; [auto|]. rewrite <- He. destruct e; cbn; auto; split; auto; split; auto.
    - destruct Ho as (e & He & _ & _ & ->). cbn [tis_cost tis_cnt er_side er_eq]. destruct s; (split; [reflexivity|]); (split; [|]); intros Es; try discriminate Es; [auto|]. rewrite <- He. destruct e; cbn; auto; split; auto; split; auto.
    - destruct Ho as (e & He & ->). cbn [tis_cost tis_cnt er_side er_eq]. destruct s; (split; [reflexivity|]); (split; [|]); intros Es; try discriminate Es; [auto|]. rewrite <- He. destruct e; cbn; auto; split; auto; split; auto.
  Qed.

  (** hatching *)
  Lemma forall2_seq {A} (P : Z -> A -> Prop) n (l : list A) : length l = n -> (forall k a, (k < n)%nat -> nth_error l k = Some a -> P (Z.of_nat k) a) -> Forall2 P (map Z.of_nat (seq 0 n)) l.
  Proof.
    revert P l. induction n as [|n IH]; intros P l L H; [destruct l; [constructor|discriminate]|]. destruct l as [|a l]; [discriminate|]. cbn [seq map]. constructor; [apply (H 0%nat a); [lia|reflexivity]|].
    rewrite <- seq_shift, map_map. assert (E : Forall2 (fun z => P (z + 1)%Z) (map Z.of_nat (seq 0 n)) l).
    { apply IH; [injection L; auto|]. intros k b Hk Hb. replace (Z.of_nat k + 1)%Z with (Z.of_nat (S k)) by lia. apply H; [lia|exact Hb]. }
    clear - E. revert l E. generalize (seq 0 n). induction l as [|k ks IH]; intros l' E; inversion E; subst; cbn [map]; constructor; [replace (Z.of_nat (S k)) with (Z.of_nat k + 1)%Z by lia; assumption|]. apply IH. assumption.
  Qed.
  Lemma hatched_parts s ty vars t : cells vars m (Z.of_nat d + 1) f -> (s = SideCost /\ ty = TT_COST \/ s = SideCnt /\ ty = TT_CNT) -> tterm_ok m d inf big quick least ty t ->
    exists l, hatch_term d vars t = Done l /\ Forall2 (part_obj s) (parts_of d t) l /\ Forall (part_ok ty) (parts_of d t).
  Proof.
    intros Hv Hs Ht. destruct t as [t|ty' c l].
    - destruct Ht as [Ht|[(Eo & Nt & Ht)|(Eo & H1 & H0 & Hp & Et & Hb)]].
      + destruct (hatched inf m d t ty f Ht Hd s vars (Z.of_nat d + 1) Hv ltac:(lia) Hs) as (a & E & Ho). cbn [hatch_term parts_of]. rewrite E. cbn [rdo map].
        assert (Nt : has (jt_type (snd t)) TT_USE_TIME = false). { destruct Ht as (_ & _ & _ & _ & -> & _). destruct Hs as [[_ ->]|[_ ->]]; reflexivity. }
        rewrite Nt. assert (Ea : as_tobj a = OJoint a) by (destruct Ho as (jv & e & -> & _); reflexivity). rewrite Ea. eexists. split; [reflexivity|]. split; [constructor; [exists a; auto|constructor]|constructor; [exact Ht|constructor]].
      + destruct (hatched inf m d (untimed t) ty f Ht Hd s vars (Z.of_nat d + 1) Hv ltac:(lia) Hs) as (a & E & Ho). cbn [hatch_term parts_of]. rewrite Nt, Eo. 
        assert (Ty : jt_type (snd t) = (ty + TT_USE_TIME)%Z) by (destruct Ht as (_ & _ & _ & _ & E5 & _); cbn [untimed snd jt_type] in E5; lia).
        assert (Ej : hatch_joint Pos (snd t) d vars = hatch_joint Pos (snd (untimed t)) d vars).
        { unfold hatch_joint. cbn [untimed snd jt_type jt_first jt_last]. rewrite Ty. replace (ty + TT_USE_TIME - TT_USE_TIME)%Z with ty by lia. change (hatch_params (snd (untimed t)) d) with (hatch_params (snd t) d). destruct Hs as [[_ ->]|[_ ->]]; reflexivity. }
        change (fst (untimed t)) with (fst t) in E. rewrite Eo in E. rewrite Ej, E. cbn [rdo map]. assert (Ea : as_tobj a = OJoint a) by (destruct Ho as (jv & e & -> & _); reflexivity). rewrite Ea. eexists. split; [reflexivity|]. split; [constructor; [exists a; auto|constructor]|constructor; [exact Ht|constructor]].
      + cbn [hatch_term parts_of]. assert (Nt : has (jt_type (snd t)) TT_USE_TIME = true). { rewrite Et. destruct Hs as [[_ ->]|[_ ->]]; reflexivity. } rewrite Nt. rewrite Eo.
        destruct (C94_time (snd t) d vars m f Hv Hd H1 H0 Hp s) as (l & e & E & L & He & Hl'); [destruct Hs as [[-> ->]|[-> ->]]; auto|]. rewrite E. cbn [rdo]. eexists. split; [reflexivity|]. unfold joints.
        split.
        * assert (G : Forall2 (fun j o => part_obj s (PSpeed t j) o) (map Z.of_nat (seq 0 d)) (map as_tobj l)).
          { apply forall2_seq; [rewrite map_length; exact L|]. intros k o Hk Ho. destruct (Hl' k Hk) as (R1 & R2 & R3). rewrite nth_error_map, R3 in Ho. cbn [option_map as_tobj] in Ho. injection Ho as <-. cbn [part_obj]. exists e. split; [exact He|].
            unfold column, first_step, last_step, coeff, target, upper, lower. rewrite Eo. split; [exact R1|]. split; [exact R2|]. reflexivity. }
          revert G. generalize (map Z.of_nat (seq 0 d)) (map as_tobj l). clear. induction l as [|a l IH]; intros l' G; inversion G; subst; cbn [map]; constructor; auto.
        * rewrite Forall_map. apply Forall_forall. intros j Hj. apply in_map_iff in Hj as (k & <- & Hk). apply in_seq in Hk. cbn [part_ok]. split; [lia|]. apply Hb. lia.
    - destruct Ht as (Et & Hb). cbn [hatch_term parts_of]. unfold hatch_total. rewrite (C91_partial vars m d f Hv Hm). cbn [lift rdo]. fold times.
      assert (He : double_equals l nzero = true <-> Rabs l < / 100000).
      { unfold double_equals. rnum. rewrite Rminus_0_r, Rltb_true. replace (Rdec 1 (-5)) with (/ 100000)%R by (unfold Rdec; change (Pos.to_nat 5) with 5%nat; simpl; field). reflexivity. }
      destruct Hs as [[-> ->]|[-> ->]]; destruct Et as [-> | ->]; (eexists; split; [reflexivity|]); (split; [|constructor; [exact Hb|constructor]]); (constructor; [|constructor]); cbn [part_obj]; (exists (double_equals l nzero)); (split; [exact He|reflexivity]).
  Qed.
End Parts.

(** ** The initial trajectory *)
Section TStart.
  Context (p : tplan).
  Local Notation m := (tp_steps p).
  Local Notation d := (length (tp_limits p)).
  Hypothesis Hm : (1 <= m)%Z.
  Hypothesis Hd : (1 <= Z.of_nat d)%Z.
  Hypothesis Ln : length (tp_now p) = d.
  Hypothesis In0 : init_ok (base p).
  Definition tstart_ok (tr : TrajoptModel.mat R) : Prop :=
    Z.of_nat (length (m_rows tr)) = m /\ m_cols tr = (d + 1)%nat /\ Forall (fun r => length r = (d + 1)%nat) (m_rows tr) /\
    forall i j, (0 <= i < m)%Z -> (0 <= j <= Z.of_nat d)%Z -> entry tr i j = tinitial p i j.
  Lemma tcheck_done (tr : TrajoptModel.mat R) : check_init tr m d true = Done tr -> Z.of_nat (length (m_rows tr)) = m /\ m_cols tr = (d + 1)%nat.
  Proof.
    unfold check_init. destruct (Z.eqb_spec (Z.of_nat (length (m_rows tr))) m) as [E|E]; [|discriminate]. destruct (Nat.eqb_spec (m_cols tr) (d + 1)) as [E'|E']; [|discriminate]. auto.
  Qed.
  Lemma app_last (r : list R) v j : (0 <= j <= Z.of_nat (length r))%Z -> nth (Z.to_nat j) (r ++ [v]) 0 = if (j =? Z.of_nat (length r))%Z then v else nth (Z.to_nat j) r 0.
  Proof.
    intros Hj. destruct (Z.eqb_spec j (Z.of_nat (length r))) as [->|N]; [rewrite Nat2Z.id, app_nth2, Nat.sub_diag by lia; reflexivity|]. rewrite app_nth1 by lia. reflexivity.
  Qed.
  Lemma tstart_done : exists tr, init_traj (tp_init p) (tp_now p) (tp_data p) m true (tp_dt p) = Done tr /\ check_init tr m d true = Done tr /\ tstart_ok tr.
  Proof.
    assert (Em : m = Z.of_nat (Z.to_nat m)) by lia. set (n := Z.to_nat m) in *.
    unfold init_ok in In0. cbn [pl_init pl_steps pl_data base] in In0. change (dofs (base p)) with d in In0. unfold tstart_ok, tinitial, initial. cbn [pl_init pl_now pl_steps pl_data base]. destruct (tp_init p) eqn:Ek.
    - destruct (C92_others (tp_now p) (tp_data p) n true (tp_dt p)) as ((t & E1 & E2 & E3) & _). rewrite Ln in E2. rewrite <- Em in E1, E2. exists t. split; [exact E1|]. split; [exact E2|].
      destruct (tcheck_done t E2) as [L1 L2]. split; [exact L1|]. split; [exact L2|]. rewrite E3. split; [apply Forall_forall; intros r Hr; apply repeat_spec in Hr as ->; rewrite app_length, Ln; reflexivity|].
      intros i j Hi' Hj'. unfold entry. rewrite E3. rewrite (nth_indep _ [] (tp_now p ++ [tp_dt p])) by (rewrite repeat_length; lia). rewrite nth_repeat. rewrite <- Ln in Hj' |- *. apply app_last, Hj'.
    - destruct In0 as (H2 & goal & Lg & Hg). destruct (C92_interpolated (tp_now p) goal (tp_data p) n true (tp_dt p)) as (t & E1 & E2 & E3 & E4); [congruence|lia|rewrite Ln; exact Hg|].
      rewrite Ln in E2, E4. rewrite <- Em in E1, E2. exists t. split; [exact E1|]. split; [exact E2|]. destruct (tcheck_done t E2) as [L1 L2]. split; [exact L1|]. split; [exact L2|]. split.
      + apply Forall_forall. intros r Hr. destruct (In_nth _ _ [] Hr) as (i & Hi' & <-). destruct (E4 i 0%nat ltac:(lia) ltac:(lia)) as (_ & _ & ->). reflexivity.
      + intros i j Hi' Hj'. unfold entry. rewrite (goal_eq (base p) goal Lg Hg). destruct (Z.eqb_spec j (Z.of_nat d)) as [->|N].
        * rewrite Nat2Z.id. destruct (E4 (Z.to_nat i) 0%nat ltac:(lia) ltac:(lia)) as (_ & E & _). apply E. reflexivity.
        * destruct (E4 (Z.to_nat i) (Z.to_nat j) ltac:(lia) ltac:(lia)) as (-> & _). unfold at_joint. rewrite !INR_IZR_INZ. rewrite Z2Nat.id by lia. replace (Z.of_nat (n - 1)) with (m - 1)%Z by lia. reflexivity.
    - destruct In0 as (H1 & H2 & H3). destruct (C92_others (tp_now p) (tp_data p) n true (tp_dt p)) as (_ & t & E1 & E2 & E3). rewrite Ln in E3. replace (length (m_rows (tp_data p))) with n in E3 by lia. rewrite H2, !Nat.eqb_refl in E3. cbn [andb] in E3.
      rewrite <- Em in E1, E3. exists t. split; [exact E1|]. split; [exact E3|]. destruct (tcheck_done t E3) as [L1 L2]. split; [exact L1|]. split; [exact L2|].
      rewrite E2. split; [rewrite Forall_map; eapply Forall_impl; [|exact H3]; cbn beta; intros r Lr; rewrite app_length, Lr; reflexivity|]. intros i j Hi Hj. unfold entry. rewrite E2.
      rewrite (map_nth_in _ _ (Z.to_nat i) []) by lia. rewrite Forall_forall in H3. assert (Lr : length (nth (Z.to_nat i) (m_rows (tp_data p)) []) = d) by (apply H3, nth_In; lia). rewrite <- Lr in Hj |- *. apply app_last, Hj.
  Qed.
  Lemma ttraj_vec_facts tr : tstart_ok tr -> length (traj_vec tr) = (Z.to_nat m * (d + 1))%nat /\ forall i j, (0 <= i < m)%Z -> (0 <= j <= Z.of_nat d)%Z -> ttraj_of p (traj_vec tr) i j = tinitial p i j.
  Proof using. clear Hm Hd Ln In0.
    intros (L1 & L2 & L3 & L4). unfold traj_vec. split; [rewrite (concat_len (d + 1) _ L3); f_equal; lia|]. intros i j Hi Hj. unfold ttraj_of.
    replace (Z.to_nat (i * (Z.of_nat d + 1) + j)) with (Z.to_nat i * (d + 1) + Z.to_nat j)%nat by nia.
    rewrite (nth_concat 0 (d + 1)) by (auto; lia). rewrite <- L4 by assumption. reflexivity.
  Qed.
End TStart.

(** ** Fixed steps and joints; the times are not fixed *)
Lemma tfixed_done rtl vars (m : Z) (d nv : nat) f (tr : TrajoptModel.mat R) steps dofs : cells vars m (Z.of_nat d + 1) f -> sized_mat tr m (Z.of_nat d + 1) ->
  (forall t, In t steps -> 0 <= t < m)%Z -> (forall j, In j dofs -> 0 <= j < Z.of_nat d)%Z -> (forall i j, (0 <= i < m)%Z -> (0 <= j < Z.of_nat d)%Z -> (f i j < nv)%nat) ->
  exists l, fix_all rtl vars tr d true steps dofs = Done l /\
    (forall e, In e l -> aff_in nv e /\ exists i j, ((0 <= i < m)%Z /\ (0 <= j < Z.of_nat d)%Z /\ (In i steps \/ In j dofs)) /\ forall x, aff_value e x = nth (f i j) x 0 - entry tr i j) /\
    forall i j, (0 <= i < m)%Z -> (0 <= j < Z.of_nat d)%Z -> In i steps \/ In j dofs -> exists e, In e l /\ forall x, aff_value e x = nth (f i j) x 0 - entry tr i j.
Proof.
  intros Hc Hm Hs Hd Hf. unfold fix_all, fix_steps, fix_dofs.
  pose (eqn := fun i j => aff_dec_const (aff_var (f i j)) (entry tr i j)). pose (eqn' := fun i j => aff_dec (aff_var (f i j)) (aff_const (entry tr i j))).
  pose (free := filter (fun i => negb (mem steps i)) (range 0 m)).
  rewrite (rmap_map _ (fun t => map (eqn t) (range 0 (Z.of_nat d)))).
  2:{ intros t Ht. specialize (Hs t Ht). destruct Hm as (Hr & Hcol). rewrite Hr. destruct (Z.ltb_spec m t); [lia|].
      replace (m_cols tr =? d + 1)%nat with true by (symmetry; apply Nat.eqb_eq; lia). cbn [negb].
      apply rmap_map. intros j Hj. apply in_range in Hj. rewrite (operands_ok rtl vars m (Z.of_nat d + 1) f tr t j Hc (conj Hr Hcol)) by lia. reflexivity. }
  cbn [rdo].
  rewrite (rmap_map _ (fun j => map (fun i => eqn' i j) free)).
  2:{ intros j Hj. specialize (Hd j Hj). destruct (Z.ltb_spec (Z.of_nat d) j); [lia|]. rewrite (proj1 Hc). apply rmap_map. intros i Hi.
      apply filter_In in Hi. destruct Hi as (Hi & _). apply in_range in Hi. rewrite (operands_ok rtl vars m (Z.of_nat d + 1) f tr i j Hc Hm) by lia. reflexivity. }
  cbn [rdo]. eexists. split; [reflexivity|].
  assert (V : forall i j x, aff_value (eqn i j) x = nth (f i j) x 0 - entry tr i j) by (intros i j x; unfold eqn; rewrite aff_dec_const_value, aff_var_value; reflexivity).
  assert (V' : forall i j x, aff_value (eqn' i j) x = nth (f i j) x 0 - entry tr i j) by (intros i j x; unfold eqn'; rewrite aff_dec_value, aff_var_value, aff_const_value by reflexivity; reflexivity).
  assert (A : forall i j, (f i j < nv)%nat -> aff_in nv (eqn i j) /\ aff_in nv (eqn' i j)).
  { intros i j H. split; (split; [reflexivity|constructor; [exact H|constructor]]). }
  split.
  - intros e He. apply in_app_iff in He. destruct He as [He|He]; apply in_concat in He; destruct He as (r & Hr & He); apply in_map_iff in Hr; destruct Hr as (k & <- & Hk); apply in_map_iff in He; destruct He as (q & <- & Hq).
    + apply in_range in Hq. pose proof (Hs k Hk). split; [apply (A k q), Hf; lia|]. exists k, q. split; [split; [lia|]; split; [lia|left; exact Hk]|apply V].
    + apply filter_In in Hq. destruct Hq as (Hq & _). apply in_range in Hq. pose proof (Hd k Hk). split; [apply (A q k), Hf; lia|]. exists q, k. split; [split; [lia|]; split; [lia|right; exact Hk]|apply V'].
  - intros i j Hi Hj Hin. destruct (mem steps i) eqn:E.
    + exists (eqn i j). split; [|apply V]. apply in_app_iff. left. apply in_concat. exists (map (eqn i) (range 0 (Z.of_nat d))). split; [apply (in_map (fun t => map (eqn t) (range 0 (Z.of_nat d)))), mem_spec, E|]. apply in_map, in_range. lia.
    + destruct Hin as [Hin|Hin]; [apply mem_spec in Hin; congruence|]. exists (eqn' i j). split; [|apply V']. apply in_app_iff. right. apply in_concat. exists (map (fun i => eqn' i j) free). split; [apply (in_map (fun j => map (fun i => eqn' i j) free)), Hin|].
      apply (in_map (fun i => eqn' i j)). apply filter_In. split; [apply in_range; lia|]. rewrite E. reflexivity.
Qed.

(** ** The whole problem *)
Lemma rmap_many {A B C} (g : A -> run (list B)) (qs : A -> list C) (P : C -> B -> Prop) l : (forall t, In t l -> exists bs, g t = Done bs /\ Forall2 P (qs t) bs) ->
  exists bs, rmap g l = Done bs /\ Forall2 P (flat_map qs l) (concat bs).
Proof.
  induction l as [|t l IH]; intros H; [exists []; split; [reflexivity|constructor]|]. destruct (H t (or_introl eq_refl)) as (a & E & Pa). destruct IH as (bs & Eb & Fb); [intros u Hu; apply H; right; exact Hu|].
  exists (a :: bs). split; [cbn [rmap]; rewrite E; cbn [rdo]; rewrite Eb; reflexivity|]. cbn [flat_map concat]. apply Forall2_app; assumption.
Qed.

Section TBuilt.
  Context (inf eps big quick least : R) (p : tplan) (rtl : bool).
  Hypothesis OK : tplan_ok p inf eps big quick least.
  Local Notation m := (tp_steps p).
  Local Notation d := (length (tp_limits p)).
  Definition tcell (i j : Z) : nat := Z.to_nat (i * (Z.of_nat d + 1) + j).
  Definition tcount : nat := Z.to_nat m * (d + 1).
  Lemma tcell_lt i j : (0 <= i < m)%Z -> (0 <= j <= Z.of_nat d)%Z -> (tcell i j < tcount)%nat.
  Proof. intros Hi Hj. unfold tcell, tcount. apply Nat2Z.inj_lt. rewrite Nat2Z.inj_mul, !Z2Nat.id by nia. nia. Qed.
  Lemma tcell_onto k : (k < tcount)%nat -> exists i j, (0 <= i < m)%Z /\ (0 <= j <= Z.of_nat d)%Z /\ k = tcell i j.
  Proof.
    intros Hk. destruct OK as (Hm & Hd & _). unfold tcount in Hk. exists (Z.of_nat (k / (d + 1))), (Z.of_nat (k mod (d + 1))). pose proof (Nat.div_mod k (d + 1) ltac:(lia)) as E. pose proof (Nat.mod_upper_bound k (d + 1) ltac:(lia)) as U.
    assert (k / (d + 1) < Z.to_nat m)%nat by (apply Nat.div_lt_upper_bound; lia). split; [lia|]. split; [lia|]. unfold tcell. replace (Z.of_nat d + 1)%Z with (Z.of_nat (d + 1)) by lia. rewrite <- Nat2Z.inj_mul, <- Nat2Z.inj_add, Nat2Z.id. lia.
  Qed.
  Lemma tfacts : (1 <= m)%Z /\ (1 <= d)%nat /\ 0 < least /\ 0 < inf.
  Proof.
    destruct OK as (Hm & Hd & _ & _ & _ & _ & _ & _ & _ & Rg & _). destruct Rg as (He & Hb & Hl & Hq & _ & _ & L1 & _ & L3 & L4 & L5). split; [lia|]. split; [lia|]. split; [exact Hl|]. lra.
  Qed.
  Definition tbuilt_facts (b : tbuilt) (ca na : list tobj) : Prop :=
    cells (tb_cells b) m (Z.of_nat d + 1) tcell /\ length (tb_vars b) = tcount /\
    (forall i j, (0 <= i < m)%Z -> (0 <= j <= Z.of_nat d)%Z -> nth (tcell i j) (map (bounds_of inf) (tb_vars b)) (0, 0) = tlimits p j) /\
    tstart_ok p (tb_init b) /\
    (forall e, In e (tb_fixed b) -> aff_in tcount e /\ small inf e /\ exists i j, fixed (base p) i j /\ forall x, aff_value e x = ttraj_of p x i j - initial (base p) i j) /\
    (forall i j, fixed (base p) i j -> exists e, In e (tb_fixed b) /\ forall x, aff_value e x = ttraj_of p x i j - initial (base p) i j) /\
    tb_added b = ca ++ na /\ Forall2 (part_obj m d tcell SideCost) (parts d (tp_costs p)) ca /\ Forall2 (part_obj m d tcell SideCnt) (parts d (tp_cnts p)) na.
  Lemma tcost_ok t : In t (tp_costs p) -> tterm_ok m d inf big quick least TT_COST t.
  Proof. intros Ht. destruct OK as (_ & _ & _ & _ & _ & _ & _ & _ & _ & _ & Hc & _). rewrite Forall_forall in Hc. apply Hc, Ht. Qed.
  Lemma tcnt_ok t : In t (tp_cnts p) -> tterm_ok m d inf big quick least TT_CNT t.
  Proof. intros Ht. destruct OK as (_ & _ & _ & _ & _ & _ & _ & _ & _ & _ & _ & Hc & _). rewrite Forall_forall in Hc. apply Hc, Ht. Qed.
  Lemma initial_below i j : (0 <= i < m)%Z -> (0 <= j < Z.of_nat d)%Z -> Rabs (initial (base p) i j) <= big.
  Proof. destruct OK as (_ & _ & _ & _ & _ & _ & _ & _ & _ & (_ & _ & _ & _ & H & _) & _). apply H. Qed.
  Lemma tinitial_joint i j : (0 <= j < Z.of_nat d)%Z -> tinitial p i j = initial (base p) i j.
  Proof. intros Hj. unfold tinitial. destruct (Z.eqb_spec j (Z.of_nat d)); [lia|reflexivity]. Qed.
  Lemma term_checks ty t : ty = TT_COST \/ ty = TT_CNT -> tterm_ok m d inf big quick least ty t -> has (ti_supported (tinfo_of t)) ty = true /\ (has (ti_type (tinfo_of t)) TT_USE_TIME = true -> has (ti_supported (tinfo_of t)) TT_USE_TIME = true).
  Proof.
    intros Hty Ht. destruct t as [t|ty' c l]; [|destruct Hty as [-> | ->]; split; reflexivity]. change (ti_supported (tinfo_of (TJoint t))) with (supported (fst t)). change (ti_type (tinfo_of (TJoint t))) with (jt_type (snd t)).
    split; [destruct Hty as [-> | ->]; destruct (fst t); reflexivity|]. intros Hu. destruct Ht as [(_ & _ & _ & _ & Et & _)|[(-> & _)|(-> & _)]]; [|reflexivity|reflexivity]. rewrite Et in Hu. destruct Hty as [-> | ->]; discriminate Hu.
  Qed.

  Lemma tbuilt_done : exists b ca na, tconstruct rtl p = Done b /\ tbuilt_facts b ca na.
  Proof.
    pose proof tfacts as (Hm1 & Hd1 & Hl0 & Hi0). destruct OK as (Hm & Hd & Hd' & Hl & Hdt & Ln & In0 & Fs & Fj & Rg & _ & _ & Hu). unfold tconstruct.
    assert (Ck : check_time (map tinfo_of (tp_costs p)) (map tinfo_of (tp_cnts p)) true = Some tt).
    { apply C93_accepts. split; [|split; [|split]].
      - intros t Ht. apply in_map_iff in Ht as (u & <- & Hin). apply (term_checks TT_COST u (or_introl eq_refl) (tcost_ok u Hin)).
      - intros t Ht. apply in_map_iff in Ht as (u & <- & Hin). apply (term_checks TT_CNT u (or_intror eq_refl) (tcnt_ok u Hin)).
      - intros t Ht. rewrite <- map_app in Ht. apply in_map_iff in Ht as (u & <- & Hin). apply in_app_iff in Hin as [Hin|Hin]; [apply (term_checks TT_COST u (or_introl eq_refl) (tcost_ok u Hin))|apply (term_checks TT_CNT u (or_intror eq_refl) (tcnt_ok u Hin))].
      - split; [intros _|reflexivity]. destruct Hu as (t & Hin & Ht). exists (tinfo_of t). split; [rewrite <- map_app; apply in_map, Hin|]. destruct t; exact Ht. }
    rewrite Ck. cbn [lift rdo].
    destruct (C58_variables m (Z.of_nat d) true (tp_limits p) (tp_dt_lower p) (tp_dt_upper p)) as (pv & vars & E & Lp & Cv & Bv & Bt); [lia|lia|lia|reflexivity|]. rewrite E. cbn [rdo fst snd]. specialize (Bt eq_refl).
    destruct (tstart_done p Hm1 Hd Ln In0) as (tr & E1 & E2 & St). rewrite E1. cbn [rdo]. rewrite E2. cbn [rdo]. pose proof St as (S1 & S2 & S3 & S4).
    destruct (tfixed_done rtl vars m d tcount tcell tr (tp_fixed_steps p) (tp_fixed_dofs p)) as (l & El & L1 & L2); [exact Cv|split; [exact S1|lia]|exact Fs|exact Fj|intros; apply tcell_lt; lia|]. rewrite El. cbn [rdo].
    destruct (rmap_many (hatch_term d vars) (parts_of d) (part_obj m d tcell SideCost) (tp_costs p)) as (ca & Ec & Fc).
    { intros t Ht. destruct (hatched_parts inf big quick least m d tcell Hd1 Hm1 SideCost TT_COST vars t Cv (or_introl (conj eq_refl eq_refl)) (tcost_ok t Ht)) as (bs & H1 & H2 & _). exists bs. auto. }
    rewrite Ec. cbn [rdo]. destruct (rmap_many (hatch_term d vars) (parts_of d) (part_obj m d tcell SideCnt) (tp_cnts p)) as (na & En & Gn).
    { intros t Ht. destruct (hatched_parts inf big quick least m d tcell Hd1 Hm1 SideCnt TT_CNT vars t Cv (or_intror (conj eq_refl eq_refl)) (tcnt_ok t Ht)) as (bs & H1 & H2 & _). exists bs. auto. }
    rewrite En. cbn [rdo]. eexists. exists (concat ca), (concat na). split; [reflexivity|]. unfold tbuilt_facts. cbn [tb_cells tb_vars tb_init tb_fixed tb_added].
    split; [exact Cv|]. split; [unfold tcount; nia|]. split.
    { intros i j Hi' Hj'. unfold tlimits, tcell. destruct (Z.eqb_spec j (Z.of_nat d)) as [->|N].
      - pose proof (Bt i Hi') as Ej. apply (map_nth_error (bounds_of inf)) in Ej. apply nth_error_nth with (d := (0, 0)) in Ej. rewrite Ej. reflexivity.
      - assert (Lj : (Z.to_nat j < d)%nat) by lia. pose proof (Bv i j (nth (Z.to_nat j) (tp_limits p) (0, 0)) Hi' ltac:(lia) (nth_error_nth' _ (0, 0) Lj)) as Ej.
        apply (map_nth_error (bounds_of inf)) in Ej. apply nth_error_nth with (d := (0, 0)) in Ej. rewrite Ej. unfold bounds_of, limits. cbn [fst snd or_else]. symmetry. apply surjective_pairing. }
    split; [exact St|]. split.
    { intros e He. destruct (L1 e He) as (A & i & j & (H1 & H2 & H3) & V). rewrite (S4 i j H1 ltac:(lia)), (tinitial_joint i j H2) in V. split; [exact A|]. split.
      - apply (small_of _ _ _ (V [])). replace (nth (tcell i j) [] 0) with 0 by (destruct (tcell i j); reflexivity). rewrite Rminus_0_l, Rabs_Ropp. eapply Rle_lt_trans; [apply (initial_below i j H1 H2)|apply Rg].
      - exists i, j. split; [split; [split; assumption|exact H3]|exact V]. }
    split.
    { intros i j ((H1 & H2) & H3). destruct (L2 i j H1 H2 H3) as (e & He & V). rewrite (S4 i j H1 ltac:(change (dofs (base p)) with d in H2; lia)), (tinitial_joint i j H2) in V. exists e. split; [exact He|exact V]. }
    split; [reflexivity|]. split; [exact Fc|exact Gn].
  Qed.
  Lemma part_oks s ty ts : s = SideCost /\ ty = TT_COST \/ s = SideCnt /\ ty = TT_CNT -> (forall t, In t ts -> tterm_ok m d inf big quick least ty t) -> (exists vars, cells vars m (Z.of_nat d + 1) tcell) -> Forall (part_ok inf big quick least m d ty) (parts d ts).
  Proof.
    pose proof tfacts as (Hm1 & Hd1 & Hl0 & Hi0). intros Hs Ht (vars & Cv). apply Forall_forall. intros q Hq. unfold parts in Hq. apply in_flat_map in Hq as (t & Hin & Hq).
    destruct (hatched_parts inf big quick least m d tcell Hd1 Hm1 s ty vars t Cv Hs (Ht t Hin)) as (bs & _ & _ & F0). rewrite Forall_forall in F0. apply F0, Hq.
  Qed.
End TBuilt.

(** ** The problem the optimizer sees *)
Section TAsProb.
  Context (inf eps big quick least : R) (p : tplan) (b : tbuilt) (ca na : list tobj).
  Hypothesis OK : tplan_ok p inf eps big quick least.
  Hypothesis BF : tbuilt_facts inf p b ca na.
  Local Notation m := (tp_steps p).
  Local Notation d := (length (tp_limits p)).
  Local Notation F := (tas_prob inf b).
  Local Notation cnts := (filter (tis_cnt true) na ++ filter (tis_cnt false) na).
  Local Notation nv := (tcount p).

  Lemma cost_oks : Forall (part_ok inf big quick least m d TT_COST) (parts d (tp_costs p)).
  Proof. apply (part_oks inf eps big quick least p OK SideCost); [left; auto|intros t Ht; apply (tcost_ok inf eps big quick least p OK t Ht)|]. exists (tb_cells b). apply BF. Qed.
  Lemma cnt_oks : Forall (part_ok inf big quick least m d TT_CNT) (parts d (tp_cnts p)).
  Proof. apply (part_oks inf eps big quick least p OK SideCnt); [right; auto|intros t Ht; apply (tcnt_ok inf eps big quick least p OK t Ht)|]. exists (tb_cells b). apply BF. Qed.
  Lemma cost_sides : Forall2 (fun q a => part_ok inf big quick least m d TT_COST q /\ part_obj m d (tcell p) SideCost q a) (parts d (tp_costs p)) ca.
  Proof. destruct BF as (_ & _ & _ & _ & _ & _ & _ & Fc & _). pose proof cost_oks as O. rewrite Forall_forall in O. eapply forall2_weaken; [|exact Fc]. intros q a Hq Ho. auto. Qed.
  Lemma cnt_sides : Forall2 (fun q a => part_ok inf big quick least m d TT_CNT q /\ part_obj m d (tcell p) SideCnt q a) (parts d (tp_cnts p)) na.
  Proof. destruct BF as (_ & _ & _ & _ & _ & _ & _ & _ & Fn). pose proof cnt_oks as O. rewrite Forall_forall in O. eapply forall2_weaken; [|exact Fn]. intros q a Hq Ho. auto. Qed.
  Lemma tcosts_are : tget_costs b = ca.
  Proof.
    destruct BF as (_ & _ & _ & _ & _ & _ & Ea & _). pose proof cost_sides as Fc. pose proof cnt_sides as Fn. unfold tget_costs. rewrite Ea, filter_app. rewrite <- (app_nil_r ca) at 2. f_equal.
    - clear - Fc. induction Fc as [|t a l l' [H1 H2] F IH]; [reflexivity|]. cbn [filter]. destruct (part_sides _ _ _ _ _ _ _ SideCost t a TT_COST H2 H1) as (-> & _). f_equal. exact IH.
    - clear - Fn. induction Fn as [|t a l l' [H1 H2] F IH]; [reflexivity|]. cbn [filter]. destruct (part_sides _ _ _ _ _ _ _ SideCnt t a TT_CNT H2 H1) as (-> & _). exact IH.
  Qed.
  Lemma tcnts_are : tget_cnts b = cnts.
  Proof.
    destruct BF as (_ & _ & _ & _ & _ & _ & Ea & _). pose proof cost_sides as Fc. unfold tget_cnts. rewrite Ea, !filter_app.
    assert (N : forall e, filter (tis_cnt e) ca = []). { intros e. clear - Fc. induction Fc as [|t a l l' [H1 H2] F IH]; [reflexivity|]. cbn [filter]. destruct (part_sides _ _ _ _ _ _ _ SideCost t a TT_COST H2 H1) as (_ & A & _). destruct (A eq_refl) as [A1 A2]. destruct e; [rewrite A1|rewrite A2]; exact IH. }
    rewrite !N. reflexivity.
  Qed.
  Lemma tcosts_facts x : Forall2 (fun q a => (exists v, tcost_value a x = Ok v /\ part_cost m d q (ttraj_of p x) v) /\
    (point_ok big quick least m d (tcell p) x -> exists ops, tcost_convex a x = Ok ops /\ Forall (fun o => op_ok nv o /\ op_small inf o) ops)) (parts d (tp_costs p)) ca.
  Proof.
    pose proof (tfacts inf eps big quick least p OK) as (Hm1 & Hd1 & Hl0 & _). eapply forall2_weaken; [|exact cost_sides]. intros q a _ [H1 H2]. split.
    - apply (part_cost_value inf big quick least m d (tcell p) nv (tcell_lt p) Hd1 q a x H2 H1).
    - intros Px. apply (part_cost_convex inf big quick least m d (tcell p) nv (tcell_lt p) Hd1 Hm1 Hl0 q a x H2 H1 Px).
  Qed.
  Definition tcnt_fact (x : list R) (q : part) (a : tobj) : Prop :=
    (exists v, tcnt_viol a x = Ok v /\ part_viol m d q (ttraj_of p x) v) /\
    (point_ok big quick least m d (tcell p) x -> exists cc, tcnt_convex a x = Ok cc /\ Forall (fun e => aff_in nv e /\ small inf e) (cc_eqs cc ++ cc_ineqs cc)) /\
    (tis_cnt true a = true <-> part_exact d q) /\ tis_cnt false a = negb (tis_cnt true a).
  Lemma tcnts_split : exists eqs ineqs, Permutation (eqs ++ ineqs) (parts d (tp_cnts p)) /\ Forall (part_exact d) eqs /\ Forall (fun q => ~ part_exact d q) ineqs /\ forall x, Forall2 (tcnt_fact x) (eqs ++ ineqs) cnts.
  Proof.
    pose proof (tfacts inf eps big quick least p OK) as (Hm1 & Hd1 & Hl0 & _).
    assert (G : Forall2 (fun t a => forall x, tcnt_fact x t a) (parts d (tp_cnts p)) na).
    { eapply forall2_weaken; [|exact cnt_sides]. intros q a _ [H1 H2] x. split; [apply (part_viol_value inf big quick least m d (tcell p) nv (tcell_lt p) Hd1 q a x H2 H1)|].
      split; [intros Px; apply (part_cnt_convex inf big quick least m d (tcell p) nv (tcell_lt p) Hd1 Hm1 Hl0 q a x H2 H1 Px)|]. apply (part_sides _ _ _ _ _ _ _ SideCnt q a TT_CNT H2 H1). reflexivity. }
    clear BF. enough (K : exists eqs ineqs, Permutation (eqs ++ ineqs) (parts d (tp_cnts p)) /\ Forall (part_exact d) eqs /\ Forall (fun t => ~ part_exact d t) ineqs /\ Forall2 (fun t a => forall x, tcnt_fact x t a) eqs (filter (tis_cnt true) na) /\ Forall2 (fun t a => forall x, tcnt_fact x t a) ineqs (filter (tis_cnt false) na)).
    { destruct K as (eqs & ineqs & K1 & K2 & K3 & K4 & K5). exists eqs, ineqs. split; [exact K1|]. split; [exact K2|]. split; [exact K3|]. intros x. apply Forall2_app; (eapply forall2_weaken; [|eassumption]); intros t a _ H; apply H. }
    induction G as [|t a l l' H G IH]; [exists [], []; split; [constructor|]; split; [constructor|]; split; [constructor|]; split; constructor|].
    destruct IH as (eqs & ineqs & K1 & K2 & K3 & K4 & K5). destruct (H []) as (_ & _ & I1 & I2). cbn [filter]. rewrite I2. destruct (tis_cnt true a) eqn:E; cbn [negb].
    - exists (t :: eqs), ineqs. split; [constructor; exact K1|]. split; [constructor; [apply I1; reflexivity|exact K2]|]. split; [exact K3|]. split; [constructor; assumption|exact K5].
    - exists eqs, (t :: ineqs). split; [apply Permutation_sym, Permutation_cons_app, Permutation_sym, K1|]. split; [exact K2|]. split; [constructor; [intros N; apply I1 in N; congruence|exact K3]|]. split; [exact K4|constructor; assumption].
  Qed.
  Lemma tvars_count : length (f_vars F) = nv. Proof. cbn [f_vars tas_prob]. rewrite map_length. apply BF. Qed.
  Lemma tcount_pos : (0 < nv)%nat. Proof. destruct OK as (Hm & Hd & _). unfold tcount. nia. Qed.
  Lemma tbounds_are i j : (0 <= i < m)%Z -> (0 <= j <= Z.of_nat d)%Z -> nth (tcell p i j) (f_lb F) 0 = fst (tlimits p j) /\ nth (tcell p i j) (f_ub F) 0 = snd (tlimits p j).
  Proof.
    intros Hi Hj. destruct BF as (_ & Lv & Bv & _). rewrite <- (Bv i j Hi Hj). cbn [f_lb f_ub tas_prob]. pose proof (tcell_lt p i j Hi Hj) as Hc.
    assert (N : forall (g : R * R -> R) l, (tcell p i j < length l)%nat -> nth (tcell p i j) (map g l) 0 = g (nth (tcell p i j) l (0, 0))) by (intros g l Hl; rewrite (nth_indep _ 0 (g (0, 0))) by (rewrite map_length; exact Hl); apply map_nth).
    rewrite !N by (rewrite map_length; lia). auto.
  Qed.
  Lemma tlimits_ok j : (0 <= j <= Z.of_nat d)%Z -> fst (tlimits p j) <= snd (tlimits p j).
  Proof.
    intros Hj. destruct OK as (_ & _ & _ & Hl & Hdt & _). unfold tlimits. destruct (Z.eqb_spec j (Z.of_nat d)); [exact Hdt|]. unfold limits. cbn [pl_limits base]. rewrite Forall_forall in Hl. apply Hl, nth_In. lia.
  Qed.
  Lemma start_point i j : (0 <= i < m)%Z -> (0 <= j <= Z.of_nat d)%Z -> ttraj_of p (closest_feasible (f_lb F) (f_ub F) (traj_vec (tb_init b)) (1 / 1000)) i j = Rmin (snd (tlimits p j) - 1 / 1000) (tinitial p i j).
  Proof.
    intros Hi Hj. pose proof BF as (_ & Lv & _ & St & _). destruct (ttraj_vec_facts p (tb_init b) St) as [L0 I0]. rewrite <- (I0 i j Hi Hj). destruct (tbounds_are i j Hi Hj) as [_ Bu]. rewrite <- Bu.
    unfold ttraj_of. fold (tcell p i j). pose proof (tcell_lt p i j Hi Hj) as Hc. pose proof tvars_count as Lf. assert (Ll : length (f_lb F) = nv) by (cbn [f_lb tas_prob]; rewrite !map_length; exact Lv). assert (Lu : length (f_ub F) = nv) by (cbn [f_ub tas_prob]; rewrite !map_length; exact Lv).
    fold (tcount p) in L0. unfold closest_feasible.
    rewrite (nth_indep _ 0 (closest_feasible1 0 0 0 (1 / 1000))) by (rewrite map_length, !combine_length; lia). rewrite (map_nth (fun t => closest_feasible1 (fst (fst t)) (snd (fst t)) (snd t) (1 / 1000)) _ ((0, 0), 0)).
    rewrite combine_nth by (rewrite combine_length; lia). rewrite combine_nth by lia. cbn [fst snd]. unfold closest_feasible1. cbn zeta. rewrite nfmin_R. rnum. reflexivity.
  Qed.
  Lemma keeps_point x : keeps inf eps F x -> twithin p inf eps (ttraj_of p x).
  Proof.
    intros [K1 K2]. split.
    - intros i j Hi Hj. destruct (tbounds_are i j Hi Hj) as [<- <-]. unfold ttraj_of. fold (tcell p i j). apply K2. cbn [f_lb tas_prob]. rewrite !map_length. destruct BF as (_ & -> & _). apply tcell_lt; assumption.
    - intros i j Hfx. pose proof BF as (_ & _ & _ & _ & _ & B2 & _). destruct (B2 i j Hfx) as (e & He & V). rewrite <- V.
      assert (Hin : In (false, e) (f_lin F)) by (apply (in_map (pair false)), He). specialize (K1 _ Hin). unfold RoundSolveSpec.cnt_near in K1. cbn [fst snd] in K1. apply Rabs_le. lra.
  Qed.
  Lemma within_point x : twithin p inf eps (ttraj_of p x) -> point_ok big quick least m d (tcell p) x.
  Proof.
    intros [W _] i Hi. destruct OK as (_ & _ & _ & _ & _ & _ & _ & _ & _ & Rg & _). destruct Rg as (He & Hb & Hl & Hq & _ & Fl & L1 & L2 & L3 & L4 & L5). split.
    - intros j Hj. specialize (W i j Hi ltac:(lia)). unfold tlimits in W. destruct (Z.eqb_spec j (Z.of_nat d)); [lia|]. unfold limits in W. cbn [pl_limits base] in W. change (nth (tcell p i j) x 0) with (ttraj_of p x i j).
      rewrite Forall_forall in Fl. destruct (Fl (nth (Z.to_nat j) (tp_limits p) (0, 0)) ltac:(apply nth_In; lia)) as (A1 & A2 & A3). set (l := nth _ _ _) in *. destruct W as [[W|W] [V|V]].
      all: pose proof (Rle_abs (fst l)); pose proof (Rle_abs (snd l)); pose proof (Rle_abs (- fst l)) as Q1; rewrite Rabs_Ropp in Q1; pose proof (Rle_abs (- snd l)) as Q2; rewrite Rabs_Ropp in Q2; try (exfalso; lra). apply Rabs_le. lra.
    - specialize (W i (Z.of_nat d) Hi ltac:(lia)). unfold tlimits in W. rewrite Z.eqb_refl in W. cbn [fst snd] in W. change (nth (tcell p i (Z.of_nat d)) x 0) with (ttraj_of p x i (Z.of_nat d)). destruct W as [[W|W] [V|V]]; lra.
  Qed.
  Lemma started_point x : x = closest_feasible (f_lb F) (f_ub F) (traj_vec (tb_init b)) (1 / 1000) -> point_ok big quick least m d (tcell p) x.
  Proof.
    intros -> i Hi. destruct OK as (_ & _ & _ & _ & _ & _ & _ & _ & _ & Rg & _). destruct Rg as (He & Hb & Hl & Hq & Ib & Fl & L1 & L2 & L3 & L4 & L5). split.
    - intros j Hj. match goal with |- Rabs ?a <= _ => change a with (ttraj_of p (closest_feasible (f_lb F) (f_ub F) (traj_vec (tb_init b)) (1 / 1000)) i j) end. rewrite (start_point i j Hi ltac:(lia)).
      rewrite (tinitial_joint p i j Hj). specialize (Ib i j Hi Hj). unfold tlimits. destruct (Z.eqb_spec j (Z.of_nat d)); [lia|]. unfold limits. cbn [pl_limits base].
      rewrite Forall_forall in Fl. destruct (Fl (nth (Z.to_nat j) (tp_limits p) (0, 0)) ltac:(apply nth_In; lia)) as (A1 & A2 & A3). set (l := nth _ _ _) in *.
      pose proof (Rle_abs (snd l)); pose proof (Rle_abs (- snd l)) as Q2; rewrite Rabs_Ropp in Q2. unfold Rmin. destruct (Rle_dec _ _); [apply Rabs_le; lra|exact Ib].
    - cbv beta. match goal with |- least <= ?a <= _ => change a with (ttraj_of p (closest_feasible (f_lb F) (f_ub F) (traj_vec (tb_init b)) (1 / 1000)) i (Z.of_nat d)) end. rewrite (start_point i (Z.of_nat d) Hi ltac:(lia)).
      unfold tlimits, tinitial. rewrite Z.eqb_refl. cbn [snd]. unfold Rmin. destruct (Rle_dec _ _); lra.
  Qed.
  Lemma visited_point x : visited inf eps F (traj_vec (tb_init b)) x -> point_ok big quick least m d (tcell p) x.
  Proof. intros [E|K]; [apply started_point, E|apply within_point, keeps_point, K]. Qed.
  Lemma parts_nonempty : parts d (tp_costs p) <> [] \/ parts d (tp_cnts p) <> [].
  Proof.
    destruct OK as (_ & Hd & _ & _ & _ & _ & _ & _ & _ & _ & _ & _ & (t & Hin & Ht)). assert (N : parts_of d t <> []).
    { destruct t as [t|ty c l]; [|discriminate]. cbn [parts_of]. cbn in Ht. rewrite Ht. unfold joints. destruct (fst t); try discriminate. destruct d; [lia|discriminate]. }
    assert (G : forall l, In t l -> parts d l <> []). { intros l Hl E. apply N. destruct (parts_of d t) as [|q qs] eqn:Eq; [reflexivity|]. assert (In q (parts d l)) by (apply in_flat_map; exists t; rewrite Eq; split; [exact Hl|left; reflexivity]). rewrite E in H. destruct H. }
    apply in_app_iff in Hin as [H|H]; [left|right]; apply G, H.
  Qed.
  Lemma tas_prob_ok : prob_ok inf eps F (traj_vec (tb_init b)).
  Proof.
    pose proof (tfacts inf eps big quick least p OK) as (_ & _ & _ & Hi). destruct BF as (_ & Lv & _ & _ & B1 & _). unfold prob_ok. rewrite tvars_count. split; [exact Hi|].
    split; [cbn [f_lb tas_prob]; rewrite !map_length; exact Lv|]. split; [cbn [f_ub tas_prob]; rewrite !map_length; exact Lv|]. split.
    { intros k Hk. destruct (tcell_onto inf eps big quick least p OK k Hk) as (i & j & H1 & H2 & ->). destruct (tbounds_are i j H1 H2) as [-> ->]. apply tlimits_ok, H2. }
    split; [cbn [f_lin tas_prob]; apply Forall_map, Forall_forall; intros e He; cbn [snd]; destruct (B1 e He) as (A & S0 & _); auto|].
    intros x Lx Vx. pose proof (visited_point x Vx) as Px. destruct tcnts_split as (eqs & ineqs & P1 & _ & _ & P2). pose proof (P2 x) as G. pose proof (forall2_len _ _ _ G) as Lg. pose proof (tcosts_facts x) as Gc. pose proof (forall2_len _ _ _ Gc) as Lc. cbn [f_viols f_ccnts f_ncnt f_costs f_ccosts tas_prob]. rewrite tcosts_are, tcnts_are, !map_length.
    split; [reflexivity|]. split; [reflexivity|]. split; [|split].
    - destruct parts_nonempty as [Ne|Ne]; [left|right]; intros X; apply (f_equal (@length R)) in X; rewrite map_length in X; cbn [length] in X.
      + rewrite <- Lc in X. destruct (parts d (tp_costs p)); [congruence|discriminate].
      + apply Permutation_length in P1. rewrite Lg, X in P1. destruct (parts d (tp_cnts p)); [congruence|discriminate].
    - apply Forall_map, Forall_forall. intros a Ha. destruct (forall2_in_r _ _ _ a Gc Ha) as (t & _ & _ & H). destruct (H Px) as (ops & -> & F0). exact F0.
    - apply Forall_map, Forall_forall. intros a Ha. destruct (forall2_in_r _ _ _ a G Ha) as (t & _ & _ & H & _). destruct (H Px) as (cc & -> & F0). exact F0.
  Qed.
  Lemma tvalues_cost x : Forall2 (fun q v => part_cost m d q (ttraj_of p x) v) (parts d (tp_costs p)) (f_costs F x).
  Proof. cbn [f_costs tas_prob]. rewrite tcosts_are. apply forall2_map_r. eapply forall2_weaken; [|exact (tcosts_facts x)]. intros t a _ ((v & -> & H) & _). exact H. Qed.
End TAsProb.
