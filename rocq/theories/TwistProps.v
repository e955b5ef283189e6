(** * C122: addTwist moves a pose along a twist *)
From Coq Require Import Reals Lra.
From Verif Require Import Num NumFacts TwistModel TwistSpec TwistProofs.
Local Open Scope R_scope.

(** The result is a rigid motion again. *)
Theorem C122_rigid : forall t v w dt, is_rotation (linear t) -> is_rotation (linear (add_twist_R t (v, w) dt)).
Proof.
  intros t v w dt M. destruct (zero_dec w) as [-> | W].
  - rewrite step_still; assumption.
  - rewrite step_lin by assumption. apply rot_mmul; [|assumption]. apply rot_rod, (unit_axis _ W).
Qed.
Print Assumptions C122_rigid.

(** The orientation is turned about the angular velocity by its length times dt, in the frame the pose is given in:
    the axis stays, and what is orthogonal to it turns by that angle.  The translation moves by the linear velocity times dt. *)
Theorem C122_turn : forall t v w dt, is_rotation (linear t) -> exists q,
  (forall u, apply (linear (add_twist_R t (v, w) dt)) u = apply q (apply (linear t) u)) /\
  apply q w = w /\
  (forall u, dot w u = 0 -> let rho := sqrt (dot w w) in
     apply q u = vadd (vscale (cos (rho * dt)) u) (vscale (sin (rho * dt) / rho) (cross w u))) /\
  translation (add_twist_R t (v, w) dt) = vadd (translation t) (vscale dt v).
Proof.
  intros t v w dt M. destruct (zero_dec w) as [-> | W].
  - exists ident. split; [intros u; rewrite step_still, apply_ident by assumption; reflexivity|]. split; [apply apply_ident|]. split; [|reflexivity].
    intros u _ rho. rewrite apply_ident. assert (rho = 0) as ->. { unfold rho. transitivity (sqrt 0); [f_equal; vec; ring|apply sqrt_0]. }
    rewrite Rmult_0_l, cos_0, sin_0. destruct u. apply v3_ext; vec; unfold Rdiv; ring.
  - destruct (unit_axis w W) as [P U]. set (rho := sqrt (dot w w)) in *. exists (rod (rho * dt) (vdiv w rho)).
    split; [intros u; rewrite step_lin by assumption; apply mmul_apply|]. split; [|split; [|reflexivity]].
    + rewrite rod_apply. assert (E : rho * rho = dot w w) by (apply sqrt_sqrt, dot_pos). clearbody rho.
      assert (E' : dot (vdiv w rho) w = rho). { transitivity (dot w w / rho); [destruct w; vec; field; lra|rewrite <- E; field; lra]. }
      rewrite E'. destruct w. apply v3_ext; vec; field; lra.
    + intros u O. cbv zeta. rewrite rod_apply.
      assert (E' : dot (vdiv w rho) u = 0). { transitivity (dot w u / rho); [destruct w, u; vec; field; lra|rewrite O; field; lra]. }
      rewrite E'. clearbody rho. destruct w, u. apply v3_ext; vec; field; lra.
Qed.
Print Assumptions C122_turn.

(** At every moment every point of the body moves with the linear velocity plus the angular velocity crossed with its arm. *)
Theorem C122_velocity : forall t v w u dt, is_rotation (linear t) ->
  has_velocity (fun s => place (add_twist_R t (v, w) s) u) dt (vadd v (cross w (apply (linear (add_twist_R t (v, w) dt)) u))).
Proof.
  intros t v w u dt M. destruct (zero_dec w) as [-> | W].
  - rewrite step_still by assumption.
    assert (X : forall s, place (add_twist_R t (v, V3 0 0 0) s) u = vadd (apply (linear t) u) (vadd (translation t) (vscale s v))).
    { intros s. unfold place. rewrite step_still by assumption. reflexivity. }
    set (b := apply (linear t) u) in *. destruct v as [v1 v2 v3], (translation t) as [p1 p2 p3], b as [b1 b2 b3].
    unfold has_velocity. split; [|split].
    + apply (screw_is _ (b1 + p1) 0 0 0 v1); [intros s; rewrite X|]; vec; ring.
    + apply (screw_is _ (b2 + p2) 0 0 0 v2); [intros s; rewrite X|]; vec; ring.
    + apply (screw_is _ (b3 + p3) 0 0 0 v3); [intros s; rewrite X|]; vec; ring.
  - destruct (unit_axis w W) as [P U]. assert (Q : sqrt (dot w w) * sqrt (dot w w) = dot w w) by (apply sqrt_sqrt, dot_pos). set (rho := sqrt (dot w w)) in *.
    set (b := apply (linear t) u).
    assert (X : forall s, apply (linear (add_twist_R t (v, w) s)) u = apply (rod (rho * s) (vdiv w rho)) b).
    { intros s. rewrite step_lin, mmul_apply by assumption. reflexivity. }
    assert (Y : forall s, place (add_twist_R t (v, w) s) u = vadd (apply (rod (rho * s) (vdiv w rho)) b) (vadd (translation t) (vscale s v))).
    { intros s. unfold place. rewrite X. reflexivity. }
    set (F := fun s => place (add_twist_R t (v, w) s) u) in *.
    assert (Z : forall s, F s = vadd (apply (rod (rho * s) (vdiv w rho)) b) (vadd (translation t) (vscale s v))) by exact Y.
    rewrite X. clearbody F. clear Y. set (n := vdiv w rho) in *. assert (N : w = vscale rho n). { unfold n. clear - P. destruct w. apply v3_ext; vec; field; lra. }
    rewrite N. clearbody n rho. clear X N W Q. set (k := dot n b).
    destruct v as [v1 v2 v3], (translation t) as [p1 p2 p3], b as [b1 b2 b3], n as [n1 n2 n3].
    assert (U' : n1 * n1 = 1 - n2 * n2 - n3 * n3) by (revert U; vec; lra). assert (K : k = n1 * b1 + n2 * b2 + n3 * b3) by reflexivity. clearbody k.
    unfold has_velocity. split; [|split].
    + apply (screw_is _ (p1 + k * n1) (b1 - k * n1) (n2 * b3 - n3 * b2) rho v1); [intros s; rewrite Z, rod_apply, K; vec; ring|].
      rewrite rod_apply. set (c := cos (rho * dt)). set (s := sin (rho * dt)). clearbody c s. vec. rewrite K. ring [U'].
    + apply (screw_is _ (p2 + k * n2) (b2 - k * n2) (n3 * b1 - n1 * b3) rho v2); [intros s; rewrite Z, rod_apply, K; vec; ring|].
      rewrite rod_apply. set (c := cos (rho * dt)). set (s := sin (rho * dt)). clearbody c s. vec. rewrite K. ring [U'].
    + apply (screw_is _ (p3 + k * n3) (b3 - k * n3) (n1 * b2 - n2 * b1) rho v3); [intros s; rewrite Z, rod_apply, K; vec; ring|].
      rewrite rod_apply. set (c := cos (rho * dt)). set (s := sin (rho * dt)). clearbody c s. vec. rewrite K. ring [U'].
Qed.
Print Assumptions C122_velocity.

(** Steps along the same twist add up, so a step can be undone, and no step changes nothing. *)
Theorem C122_steps : forall t v w, is_rotation (linear t) ->
  (forall a b, add_twist_R (add_twist_R t (v, w) a) (v, w) b = add_twist_R t (v, w) (a + b)) /\
  add_twist_R t (v, w) 0 = t /\
  (forall dt, add_twist_R t (V3 0 0 0, V3 0 0 0) dt = t).
Proof.
  intros t v w M.
  assert (Ext : forall x y : iso R, linear x = linear y -> translation x = translation y -> x = y) by (intros [? ?] [? ?]; cbn; intros -> ->; reflexivity).
  assert (Tr : forall t v w dt, translation (add_twist_R t (v, w) dt) = vadd (translation t) (vscale dt v)) by reflexivity.
  split; [|split].
  - intros a b. apply Ext.
    + destruct (zero_dec w) as [-> | W]; [rewrite !step_still; auto; rewrite step_still; assumption|].
      rewrite (step_lin (add_twist_R t (v, w) a)) by (try apply C122_rigid; assumption). rewrite !step_lin by assumption.
      destruct (unit_axis w W) as [P U]. rewrite Rmult_plus_distr_l, Rplus_comm, <- rod_plus by assumption.
      apply mat_ext. intros u. rewrite !mmul_apply. reflexivity.
    + rewrite !Tr. destruct (translation t), v. apply v3_ext; vec; ring.
  - apply Ext.
    + destruct (zero_dec w) as [-> | W]; [apply step_still; assumption|]. rewrite step_lin, Rmult_0_r, rod_zero by assumption.
      apply mat_ext. intros u. rewrite mmul_apply, apply_ident. reflexivity.
    + rewrite Tr. destruct (translation t), v. apply v3_ext; vec; ring.
  - intros dt. apply Ext; [apply step_still; assumption|]. rewrite Tr. destruct (translation t). apply v3_ext; vec; ring.
Qed.
Print Assumptions C122_steps.

(** The column the analytic Jacobian of the pose constraint takes from addTwist.  With a target frame that is not turned it is
    the difference quotient of the motion.  With both frames turned alike by [m], the source moving with [w] changes the error
    by m^T w; the column is m^T m^T w: the velocity has been turned into the target frame twice. *)
Theorem C122_frames : forall f m p p' v w eps, is_rot_err f -> is_rotation m -> 0 < eps -> sqrt (dot w w) * eps < PI ->
  (linear p = ident -> analytic_column sqrt sin cos f p p' (v, w) eps = vdiv (rot_diff f p p' (add_twist_R p' (v, w) eps)) eps) /\
  (linear p = m -> linear p' = m ->
    vdiv (rot_diff f p p' (add_twist_R p' (v, w) eps)) eps = apply (transpose m) w /\
    analytic_column sqrt sin cos f p p' (v, w) eps = apply (transpose m) (apply (transpose m) w)).
Proof.
  intros f m p p' v w eps F M E L. split.
  - intros I. unfold analytic_column, change_base. rewrite I, (rot_inverse _ rot_ident). cbn [fst snd].
    change (transpose ident) with ident. rewrite !apply_ident. reflexivity.
  - intros P P'.
    assert (Z : f (mmul (inverse m) m) = V3 0 0 0).
    { rewrite rot_inverse_left, <- (rod_zero (V3 1 0 0)) by assumption. unfold rod. rewrite F; [apply v3_ext; vec; ring|vec; ring|]. pose proof PI_RGT_0. lra. }
    assert (Col : forall v w, sqrt (dot w w) * eps < PI -> vdiv (rot_diff f p p' (add_twist_R p' (v, w) eps)) eps = apply (transpose m) w).
    { clear v w L. intros v w L. unfold rot_diff. rewrite P, P', Z. destruct (zero_dec w) as [-> | W].
      - rewrite step_still by (rewrite P'; assumption). rewrite P', Z, apply_zero. apply v3_ext; vec; field; lra.
      - rewrite step_lin, P' by (try rewrite P'; assumption). destruct (unit_axis w W) as [S' U]. set (rho := sqrt (dot w w)) in *.
        assert (C : mmul (inverse m) (mmul (rod (rho * eps) (vdiv w rho)) m) = rod (rho * eps) (vdiv (apply (transpose m) w) rho)).
        { rewrite rot_inverse by assumption. apply mat_ext. intros u. rewrite !mmul_apply, <- mmul_apply, rod_conj, mmul_apply, rot_left, apply_vdiv by (try apply rot_transpose; assumption). reflexivity. }
        rewrite C. unfold rod. rewrite F.
        + destruct (apply (transpose m) w). apply v3_ext; vec; field; lra.
        + rewrite <- apply_vdiv. destruct (rot_transpose _ M) as [D _]. rewrite D. exact U.
        + split; [|exact L]. apply Rmult_le_pos; lra. }
    split; [apply Col; assumption|]. unfold analytic_column, change_base. cbn [fst snd]. rewrite P, (rot_inverse _ M). apply Col.
    destruct (rot_transpose _ M) as [D _]. rewrite D. exact L.
Qed.
Print Assumptions C122_frames.

(** So the column is not the derivative of the error: a target frame turned by a quarter about x, a joint turning about z. *)
Definition quarter : mat3 R := M3 (V3 1 0 0) (V3 0 0 (-1)) (V3 0 1 0).
Lemma quarter_rotation : is_rotation quarter.
Proof. split; intros [u1 u2 u3] [w1 w2 w3]; unfold quarter; [vec; ring|apply v3_ext; vec; ring]. Qed.
Theorem C122_frames_refuted : exists pose w, is_rotation (linear pose) /\ forall f eps, is_rot_err f -> 0 < eps < PI ->
  vdiv (rot_diff f pose pose (add_twist_R pose (V3 0 0 0, w) eps)) eps = V3 0 1 0 /\
  analytic_column sqrt sin cos f pose pose (V3 0 0 0, w) eps = V3 0 0 (-1).
Proof.
  exists (Iso quarter (V3 0 0 0)), (V3 0 0 1). split; [apply quarter_rotation|]. intros f eps F E.
  destruct (C122_frames f quarter (Iso quarter (V3 0 0 0)) (Iso quarter (V3 0 0 0)) (V3 0 0 0) (V3 0 0 1) eps F quarter_rotation) as [_ X]; [lra| |].
  - replace (dot (V3 0 0 1) (V3 0 0 1)) with 1 by (vec; ring). rewrite sqrt_1. lra.
  - destruct (X eq_refl eq_refl) as [A B]. rewrite A, B. split; unfold quarter; apply v3_ext; vec; ring.
Qed.
Print Assumptions C122_frames_refuted.

(** ** Examples *)
(** a rotational error as [is_rot_err] asks: the angle from the trace, the axis from the skew part *)
Definition log_err (m : mat3 R) : vec3 R :=
  let th := acos ((vx (r0 m) + vy (r1 m) + vz (r2 m) - 1) / 2) in
  vscale (th / sin th) (V3 ((vy (r2 m) - vz (r1 m)) / 2) ((vz (r0 m) - vx (r2 m)) / 2) ((vx (r1 m) - vy (r0 m)) / 2)).
Example log_err_is : is_rot_err log_err.
Proof.
  intros [n1 n2 n3] th U [L H]. assert (U' : n1 * n1 = 1 - n2 * n2 - n3 * n3) by (revert U; vec; lra). unfold log_err. cbv zeta.
  match goal with |- context [acos ?x] => assert (C : x = cos th) by (vec; field [U']) end. rewrite C, acos_cos by lra.
  destruct L as [L|<-].
  - assert (S' : 0 < sin th) by (apply sin_gt_0; lra). apply v3_ext; vec; field; lra.
  - apply v3_ext; vec; rewrite sin_0; unfold Rdiv; ring.
Qed.
(** a quarter turn about z in one second, moving along x *)
Example C122_example : add_twist_R (Iso quarter (V3 1 2 3)) (V3 5 0 0, V3 0 0 (PI / 2)) 1 =
  Iso (M3 (V3 0 0 1) (V3 1 0 0) (V3 0 1 0)) (V3 6 2 3).
Proof.
  pose proof PI_RGT_0 as P.
  assert (W : V3 0 0 (PI / 2) <> V3 0 0 0) by (intros X; injection X; lra).
  assert (E : forall x y : iso R, linear x = linear y -> translation x = translation y -> x = y) by (intros [? ?] [? ?]; cbn; intros -> ->; reflexivity).
  apply E; [|apply v3_ext; vec; ring]. rewrite step_lin by (exact W || exact quarter_rotation).
  assert (D : sqrt (dot (V3 0 0 (PI / 2)) (V3 0 0 (PI / 2))) = PI / 2).
  { replace (dot (V3 0 0 (PI / 2)) (V3 0 0 (PI / 2))) with ((PI / 2) * (PI / 2)) by (vec; ring). apply sqrt_square. lra. }
  rewrite D, Rmult_1_r. unfold rod, quarter. apply m3_ext; apply v3_ext; vec; rewrite ?sin_PI2, ?cos_PI2; field; lra.
Qed.
