(** * Lemmas for C122 *)
From Coq Require Import Reals Lra Nsatz.
From Verif Require Import Num NumFacts TwistModel TwistSpec.
Local Open Scope R_scope.

Lemma v3_ext : forall u w : vec3 R, vx u = vx w -> vy u = vy w -> vz u = vz w -> u = w.
Proof. intros [a b c] [d e f]. cbn. intros -> -> ->. reflexivity. Qed.
Lemma m3_ext : forall a b : mat3 R, r0 a = r0 b -> r1 a = r1 b -> r2 a = r2 b -> a = b.
Proof. intros [a b c] [d e f]. cbn. intros -> -> ->. reflexivity. Qed.

Ltac vec := unfold place, mmul, apply, transpose, cross, dot, vadd, vsub, vscale, vdiv, angle_axis; cbn [vx vy vz r0 r1 r2 linear translation fst snd]; cbn.

Definition rod (th : R) (n : vec3 R) : mat3 R := angle_axis sin cos th n.
Definition ident : mat3 R := M3 (V3 1 0 0) (V3 0 1 0) (V3 0 0 1).

Lemma apply_ident : forall u : vec3 R, apply ident u = u.
Proof. intros [a b c]. unfold ident. apply v3_ext; vec; ring. Qed.
Lemma mmul_ident_r : forall m : mat3 R, mmul m ident = m.
Proof. intros [[? ? ?] [? ? ?] [? ? ?]]. unfold ident. apply m3_ext; apply v3_ext; vec; ring. Qed.
Lemma mmul_apply : forall (a b : mat3 R) u, apply (mmul a b) u = apply a (apply b u).
Proof. intros [[? ? ?] [? ? ?] [? ? ?]] [[? ? ?] [? ? ?] [? ? ?]] [? ? ?]. apply v3_ext; vec; ring. Qed.
Lemma mat_ext : forall a b : mat3 R, (forall u, apply a u = apply b u) -> a = b.
Proof.
  intros a b E. pose proof (E (V3 1 0 0)) as E1. pose proof (E (V3 0 1 0)) as E2. pose proof (E (V3 0 0 1)) as E3.
  destruct a as [[? ? ?] [? ? ?] [? ? ?]], b as [[? ? ?] [? ? ?] [? ? ?]].
  revert E1 E2 E3. vec. intros E1 E2 E3. injection E1 as ? ? ?. injection E2 as ? ? ?. injection E3 as ? ? ?.
  apply m3_ext; apply v3_ext; vec; lra.
Qed.
Lemma rod_apply : forall th n (u : vec3 R), apply (rod th n) u = vadd (vadd (vscale (cos th) u) (vscale (sin th) (cross n u))) (vscale ((1 - cos th) * dot n u) n).
Proof. intros th [? ? ?] [? ? ?]. unfold rod. apply v3_ext; vec; ring. Qed.
Lemma trig : forall th, sin th * sin th + cos th * cos th = 1.
Proof. intros th. pose proof (sin2_cos2 th). unfold Rsqr in *. lra. Qed.
Lemma rod_zero : forall n, rod 0 n = ident.
Proof. intros [? ? ?]. unfold rod, ident. apply m3_ext; apply v3_ext; vec; rewrite ?sin_0, ?cos_0; ring. Qed.

(** rotations *)
Lemma rot_ident : is_rotation ident.
Proof. split; intros u w; rewrite ?apply_ident; reflexivity. Qed.
Lemma rot_mmul : forall a b, is_rotation a -> is_rotation b -> is_rotation (mmul a b).
Proof. intros a b [A1 A2] [B1 B2]. split; intros u w; rewrite !mmul_apply. - rewrite A1. apply B1. - rewrite B2. apply A2. Qed.
Lemma rot_rod : forall th n, dot n n = 1 -> is_rotation (rod th n).
Proof.
  intros th n N. pose proof (trig th) as Tr. split; intros u w; rewrite !rod_apply; set (c := cos th) in *; set (s := sin th) in *; clearbody c s;
    destruct n as [n1 n2 n3], u as [u1 u2 u3], w as [w1 w2 w3].
  - revert N. vec. intros N. nsatz.
  - revert N. vec. intros N. apply v3_ext; cbn [vx vy vz]; nsatz.
Qed.
(** the columns of a rotation are orthonormal and right-handed *)
Lemma rot_cols : forall a b c d e f g h i, is_rotation (M3 (V3 a b c) (V3 d e f) (V3 g h i)) ->
  (e * i - h * f = a /\ h * c - b * i = d /\ b * f - e * c = g) /\ (f * g - i * d = b /\ i * a - c * g = e /\ c * d - f * a = h) /\
  (d * h - g * e = c /\ g * b - a * h = f /\ a * e - d * b = i) /\ a * a + d * d + g * g = 1.
Proof.
  intros a b c d e f g h i [D C].
  pose proof (C (V3 1 0 0) (V3 0 1 0)) as C3. pose proof (C (V3 0 1 0) (V3 0 0 1)) as C1. pose proof (C (V3 0 0 1) (V3 1 0 0)) as C2.
  pose proof (D (V3 1 0 0) (V3 1 0 0)) as D1.
  revert C1 C2 C3 D1. vec. intros C1 C2 C3 D1.
  injection C1 as X1 X2 X3. injection C2 as Y1 Y2 Y3. injection C3 as Z1 Z2 Z3. lra.
Qed.
(** the inverse of a rotation is its transpose *)
Lemma rot_inverse : forall m, is_rotation m -> inverse m = transpose m.
Proof.
  intros [[a b c] [d e f] [g h i]] M. apply rot_cols in M as ((X1 & X2 & X3) & (Y1 & Y2 & Y3) & (Z1 & Z2 & Z3) & D1).
  unfold inverse. vec. rewrite X1, X2, X3, Y1, Y2, Y3, Z1, Z2, Z3, D1. apply m3_ext; apply v3_ext; cbn [vx vy vz r0 r1 r2]; lra.
Qed.
Lemma rot_left : forall m u, is_rotation m -> apply (transpose m) (apply m u) = u.
Proof.
  intros m u [D _].
  pose proof (D (V3 1 0 0) u) as D1. pose proof (D (V3 0 1 0) u) as D2. pose proof (D (V3 0 0 1) u) as D3.
  destruct m as [[a b c] [d e f] [g h i]], u as [u1 u2 u3]. revert D1 D2 D3. vec. intros D1 D2 D3. apply v3_ext; cbn [vx vy vz]; lra.
Qed.
Lemma rot_inverse_left : forall m, is_rotation m -> mmul (inverse m) m = ident.
Proof. intros m M. rewrite rot_inverse by assumption. apply mat_ext. intros u. rewrite mmul_apply, rot_left, apply_ident by assumption. reflexivity. Qed.
Lemma rot_right : forall m u, is_rotation m -> apply m (apply (transpose m) u) = u.
Proof.
  intros m u M.
  (* the rows are orthonormal too: the inverse is on both sides *)
  assert (E : mmul m (inverse m) = ident).
  { destruct m as [[a b c] [d e f] [g h i]]. apply rot_cols in M as ((X1 & X2 & X3) & (Y1 & Y2 & Y3) & (Z1 & Z2 & Z3) & D1).
    assert (Det : a * (e * i - h * f) + d * (h * c - b * i) + g * (b * f - e * c) = 1) by (rewrite X1, X2, X3; exact D1).
    unfold inverse, ident. vec. apply m3_ext; apply v3_ext; cbn [vx vy vz r0 r1 r2]; rewrite ?Det; lra. }
  rewrite <- (rot_inverse _ M), <- mmul_apply, E. apply apply_ident.
Qed.
Lemma rot_transpose : forall m, is_rotation m -> is_rotation (transpose m).
Proof.
  intros m M. pose proof (fun u => rot_right m u M) as Rr. destruct (M) as [D C]. split; intros u w.
  - rewrite <- (D (apply (transpose m) u)). rewrite !Rr. reflexivity.
  - rewrite <- (rot_left m (cross (apply (transpose m) u) _) M). rewrite C, !Rr. reflexivity.
Qed.
Lemma apply_vscale : forall (m : mat3 R) k u, apply m (vscale k u) = vscale k (apply m u).
Proof. intros [[? ? ?] [? ? ?] [? ? ?]] k [? ? ?]. apply v3_ext; vec; ring. Qed.
Lemma apply_vadd : forall (m : mat3 R) u w, apply m (vadd u w) = vadd (apply m u) (apply m w).
Proof. intros [[? ? ?] [? ? ?] [? ? ?]] [? ? ?] [? ? ?]. apply v3_ext; vec; ring. Qed.
(** turning the axis *)
Lemma rod_conj : forall m th n, is_rotation m -> mmul m (rod th n) = mmul (rod th (apply m n)) m.
Proof.
  intros m th n [D C]. apply mat_ext. intros u. rewrite !mmul_apply, !rod_apply, !apply_vadd, !apply_vscale, C, D. reflexivity.
Qed.
Lemma rod_plus : forall a b n, dot n n = 1 -> mmul (rod a n) (rod b n) = rod (a + b) n.
Proof.
  intros a b n N. apply mat_ext. intros u. rewrite mmul_apply, !rod_apply, cos_plus, sin_plus.
  set (ca := cos a). set (sa := sin a). set (cb := cos b). set (sb := sin b). clearbody ca sa cb sb.
  destruct n as [n1 n2 n3], u as [u1 u2 u3]. revert N. vec. intros N. apply v3_ext; cbn [vx vy vz]; nsatz.
Qed.
Lemma rod_opp : forall th n, rod (- th) (vscale (-1) n) = rod th n.
Proof. intros th [? ? ?]. unfold rod. apply m3_ext; apply v3_ext; vec; rewrite ?sin_neg, ?cos_neg; ring. Qed.

(** norms *)
Lemma dot_pos : forall u : vec3 R, 0 <= dot u u.
Proof. intros [a b c]. vec. pose proof (Rle_0_sqr a). pose proof (Rle_0_sqr b). pose proof (Rle_0_sqr c). unfold Rsqr in *. lra. Qed.
Lemma dot_zero : forall u : vec3 R, dot u u = 0 -> u = V3 0 0 0.
Proof.
  intros [a b c]. vec. intros E. pose proof (Rle_0_sqr a). pose proof (Rle_0_sqr b). pose proof (Rle_0_sqr c). unfold Rsqr in *.
  assert (a * a = 0 /\ b * b = 0 /\ c * c = 0) as (A & B & C) by lra.
  apply v3_ext; cbn; [apply Rmult_integral in A|apply Rmult_integral in B|apply Rmult_integral in C]; lra.
Qed.
(** the rotation of addTwist in closed form *)
Lemma rod_step : forall (a : vec3 R) dt, a <> V3 0 0 0 ->
  rod (norm (T := R) sqrt (vscale dt a)) (normalized (T := R) sqrt (vscale dt a)) = rod (sqrt (dot a a) * dt) (vdiv a (sqrt (dot a a))) /\ 0 < sqrt (dot a a) /\
  dot (vdiv a (sqrt (dot a a))) (vdiv a (sqrt (dot a a))) = 1.
Proof.
  intros a dt A. pose proof (dot_pos a) as P. assert (P' : 0 < dot a a). { destruct P as [P|P]; [assumption|]. exfalso. apply A, dot_zero. auto. }
  pose proof (sqrt_lt_R0 _ P') as S'. pose proof (sqrt_sqrt _ P) as SS. set (r := sqrt (dot a a)) in *.
  assert (U : dot (vdiv a r) (vdiv a r) = 1).
  { revert SS. clearbody r. destruct a as [a1 a2 a3]. vec. intros SS. transitivity ((a1 * a1 + a2 * a2 + a3 * a3) / (r * r)); [field; lra|]. rewrite <- SS. field. lra. }
  split; [|split; assumption].
  assert (E : dot (vscale dt a) (vscale dt a) = (r * Rabs dt) * (r * Rabs dt)).
  { transitivity (r * r * (Rabs dt * Rabs dt)); [|ring]. rewrite SS. replace (Rabs dt * Rabs dt) with (dt * dt) by (pose proof (Rsqr_abs dt) as Q; unfold Rsqr in Q; exact Q).
    destruct a. vec. ring. }
  assert (E' : sqrt (dot (vscale dt a) (vscale dt a)) = r * Rabs dt).
  { rewrite E. apply sqrt_square. apply Rmult_le_pos; [lra|apply Rabs_pos]. }
  unfold norm, normalized. rewrite E'. rnum. rewrite E. destruct (Rltb_spec 0 (r * Rabs dt * (r * Rabs dt))) as [L|L].
  - assert (Rabs dt <> 0) as N. { intros Z. rewrite Z in L. lra. }
    destruct (Rcase_abs dt) as [Ng|Ng].
    + rewrite (Rabs_left _ Ng). rewrite <- (rod_opp (r * dt)). replace (- (r * dt)) with (r * - dt) by ring. f_equal.
      clear - S' Ng. destruct a. apply v3_ext; vec; field; lra.
    + rewrite (Rabs_right _ Ng). f_equal. rewrite (Rabs_right _ Ng) in N. clear - S' N. destruct a. apply v3_ext; vec; field; lra.
  - assert (Rabs dt = 0) as Z.
    { destruct (Req_dec (Rabs dt) 0); [assumption|]. exfalso. pose proof (Rabs_pos dt). assert (0 < r * Rabs dt) by (apply Rmult_lt_0_compat; lra).
      assert (0 < r * Rabs dt * (r * Rabs dt)) by (apply Rmult_lt_0_compat; lra). lra. }
    rewrite Z. assert (dt = 0) as -> by (destruct (Req_dec dt 0) as [?|X]; [assumption|exfalso; apply (Rabs_no_R0 _ X Z)]).
    rewrite !Rmult_0_r, !rod_zero. reflexivity.
Qed.
Lemma apply_vdiv : forall (m : mat3 R) k u, apply m (vdiv u k) = vdiv (apply m u) k.
Proof. intros [[? ? ?] [? ? ?] [? ? ?]] k [? ? ?]. apply v3_ext; vec; unfold Rdiv; ring. Qed.
Lemma apply_zero : forall m : mat3 R, apply m (V3 0 0 0) = V3 0 0 0.
Proof. intros [[? ? ?] [? ? ?] [? ? ?]]. apply v3_ext; vec; ring. Qed.
Lemma step_lin : forall t v w dt, is_rotation (linear t) -> w <> V3 0 0 0 ->
  linear (add_twist_R t (v, w) dt) = mmul (rod (sqrt (dot w w) * dt) (vdiv w (sqrt (dot w w)))) (linear t).
Proof.
  intros [m p] v w dt M W. cbn [linear] in *. unfold add_twist_R, add_twist. cbn [linear snd fst].
  rewrite (rot_inverse _ M). set (a := apply (transpose m) w).
  assert (E : apply m a = w) by (apply rot_right; assumption).
  assert (A : a <> V3 0 0 0). { intros Z. apply W. rewrite <- E, Z. apply apply_zero. }
  destruct (rod_step a dt A) as (S' & _ & _). fold (rod (norm sqrt (vscale dt a)) (normalized sqrt (vscale dt a))). rewrite S', (rod_conj _ _ _ M), apply_vdiv, E.
  replace (dot a a) with (dot w w); [reflexivity|]. rewrite <- E at 1 2. apply M.
Qed.
Lemma step_still : forall t v dt, is_rotation (linear t) -> linear (add_twist_R t (v, V3 0 0 0) dt) = linear t.
Proof.
  intros [m p] v dt M. cbn [linear] in *. unfold add_twist_R, add_twist. cbn [linear snd fst]. rewrite apply_zero.
  assert (Z : vscale dt (V3 0 0 0) = V3 0 0 0) by (apply v3_ext; vec; ring). rewrite Z.
  unfold norm. assert (D : dot (V3 0 0 0) (V3 0 0 0) = 0) by (vec; ring). rewrite D, sqrt_0.
  change (angle_axis sin cos 0 ?x) with (rod 0 x). match goal with |- mmul m ?x = m => change x with (rod 0 (normalized (T := R) sqrt (V3 0 0 0))) end.
  rewrite rod_zero. apply mmul_ident_r.
Qed.
Lemma unit_axis : forall w, w <> V3 0 0 0 -> 0 < sqrt (dot w w) /\ dot (vdiv w (sqrt (dot w w))) (vdiv w (sqrt (dot w w))) = 1.
Proof. intros w W. destruct (rod_step w 0 W) as (_ & A & B). auto. Qed.
Lemma zero_dec : forall w : vec3 R, w = V3 0 0 0 \/ w <> V3 0 0 0.
Proof.
  intros [a b c]. destruct (Req_dec a 0) as [->|N]; [|right; congruence]. destruct (Req_dec b 0) as [->|N]; [|right; congruence].
  destruct (Req_dec c 0) as [->|N]; [left; reflexivity|right; congruence].
Qed.
Lemma screw_lim : forall A B C r v t, derivable_pt_lim (fun s => A + B * cos (r * s) + C * sin (r * s) + v * s) t (- B * r * sin (r * t) + C * r * cos (r * t) + v).
Proof.
  intros A B C r v t.
  assert (L : derivable_pt_lim (fun s => r * s) t r).
  { pose proof (derivable_pt_lim_scal (fun s => s) r t 1 (derivable_pt_lim_id t)) as L. rewrite Rmult_1_r in L. exact L. }
  assert (D1 : derivable_pt_lim (fun s => cos (r * s)) t (- sin (r * t) * r)).
  { apply (derivable_pt_lim_comp (fun s => r * s) cos); [exact L|apply derivable_pt_lim_cos]. }
  assert (D2 : derivable_pt_lim (fun s => sin (r * s)) t (cos (r * t) * r)).
  { apply (derivable_pt_lim_comp (fun s => r * s) sin); [exact L|apply derivable_pt_lim_sin]. }
  replace (- B * r * sin (r * t) + C * r * cos (r * t) + v) with (0 + B * (- sin (r * t) * r) + C * (cos (r * t) * r) + v * 1) by ring.
  apply (derivable_pt_lim_plus (fun s => A + B * cos (r * s) + C * sin (r * s)) (fun s => v * s)).
  - apply (derivable_pt_lim_plus (fun s => A + B * cos (r * s)) (fun s => C * sin (r * s))).
    + apply (derivable_pt_lim_plus (fun _ => A) (fun s => B * cos (r * s))); [apply derivable_pt_lim_const|]. apply (derivable_pt_lim_scal (fun s => cos (r * s))), D1.
    + apply (derivable_pt_lim_scal (fun s => sin (r * s))), D2.
  - apply (derivable_pt_lim_scal (fun s => s)), derivable_pt_lim_id.
Qed.
(** a component moving so *)
Lemma screw_is : forall (f : R -> R) A B C r v t d, (forall s, f s = A + B * cos (r * s) + C * sin (r * s) + v * s) ->
  d = - B * r * sin (r * t) + C * r * cos (r * t) + v -> derivable_pt_lim f t d.
Proof.
  intros f A B C r v t d E ->. intros eps He. destruct (screw_lim A B C r v t eps He) as [del X]. exists del. intros h Hn Hl. rewrite !E. apply X; assumption.
Qed.
