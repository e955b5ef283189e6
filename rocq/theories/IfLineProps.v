(** * The Cartesian line constraint of trajopt_ifopt (C103-C105) *)
From Coq Require Import ZArith List Bool Reals Lra Lia Arith.
From Verif Require Import Num NumFacts Common IfoptModel CollisionModel ModelingModel KinModel KinProofs IfCartModel IfCartProps.
Import ListNotations.
Local Open Scope R_scope.

(** ** Points of space, independent of the model *)
Definition pt3 (x : R * R * R) : list R := let '(x0, x1, x2) := x in [x0; x1; x2].
Definition dot3 (x y : R * R * R) : R := let '(x0, x1, x2) := x in let '(y0, y1, y2) := y in x0 * y0 + x1 * y1 + x2 * y2.
Definition sub3 (x y : R * R * R) : R * R * R := let '(x0, x1, x2) := x in let '(y0, y1, y2) := y in (x0 - y0, x1 - y1, x2 - y2).
Definition along (a : R * R * R) (t : R) (d : R * R * R) : R * R * R :=
  let '(a0, a1, a2) := a in let '(d0, d1, d2) := d in (a0 + t * d0, a1 + t * d1, a2 + t * d2).
Definition dist2 (x y : R * R * R) : R := dot3 (sub3 x y) (sub3 x y).
Definition len3 (x : R * R * R) : R := sqrt (dot3 x x).
(** y lies on the segment from a to b *)
Definition on_segment (a b y : R * R * R) : Prop := exists t, 0 <= t <= 1 /\ y = along a t (sub3 b a).
Definition closest (a b p y : R * R * R) : Prop := on_segment a b y /\ forall z, on_segment a b z -> dist2 p y <= dist2 p z.
(** the unit direction of the segment; the coordinate of p along it; the code's coordinate, taken from the absolute
    values of p - a *)
Definition dir (a b : R * R * R) : R * R * R := along (0, 0, 0) (/ len3 (sub3 b a)) (sub3 b a).
Definition coordinate (a b p : R * R * R) : R := dot3 (sub3 p a) (dir a b).
Definition abs3 (x : R * R * R) : R * R * R := let '(x0, x1, x2) := x in (Rabs x0, Rabs x1, Rabs x2).
Definition code_coordinate (a b p : R * R * R) : R := dot3 (abs3 (sub3 p a)) (dir a b).
Definition code_place (l m : R) : R := if Rlt_dec 1 m then l else if Rlt_dec m 0 then 0 else m.

Ltac pts := apply (f_equal2 (@pair (R * R) R)); [apply (f_equal2 (@pair R R))|].
Lemma dot3_pos x : 0 <= dot3 x x.
Proof. destruct x as [[x0 x1] x2]. cbn. nra. Qed.
Lemma len_pos a b : a <> b -> 0 < dot3 (sub3 b a) (sub3 b a).
Proof.
  intros N. destruct (Rle_lt_or_eq_dec _ _ (dot3_pos (sub3 b a))) as [H | H]; auto. exfalso. apply N.
  destruct a as [[a0 a1] a2], b as [[b0 b1] b2]. cbn in H.
  assert (K : forall x y z : R, 0 = x * x + y * y + z * z -> x = 0).
  { intros x y z E. pose proof (Rle_0_sqr x). pose proof (Rle_0_sqr y). pose proof (Rle_0_sqr z). unfold Rsqr in *.
    assert (x * x = 0) as E2 by lra. apply Rmult_integral in E2. tauto. }
  pose proof (K _ _ _ H) as H1. assert (H2 : b1 - a1 = 0) by (apply (K _ (b0 - a0) (b2 - a2)); lra).
  assert (H3 : b2 - a2 = 0) by (apply (K _ (b0 - a0) (b1 - a1)); lra).
  pts; lra.
Qed.
Lemma dir_facts a b : a <> b -> let l := len3 (sub3 b a) in
  0 < l /\ dot3 (dir a b) (dir a b) = 1 /\ sub3 b a = along (0, 0, 0) l (dir a b).
Proof.
  intros N l. pose proof (len_pos a b N) as H. assert (Hl : 0 < l) by (apply sqrt_lt_R0; auto).
  assert (Hll : l * l = dot3 (sub3 b a) (sub3 b a)) by (apply sqrt_sqrt; lra).
  split; [auto|]. unfold dir. fold l. clearbody l. destruct (sub3 b a) as [[d0 d1] d2]. cbn in *. split.
  - replace ((0 + / l * d0) * (0 + / l * d0) + (0 + / l * d1) * (0 + / l * d1) + (0 + / l * d2) * (0 + / l * d2))
      with (/ l * / l * (d0 * d0 + d1 * d1 + d2 * d2)) by ring. rewrite <- Hll. field. lra.
  - pts; field; lra.
Qed.
(** in units of the direction *)
Lemma segment_unit a b y : a <> b -> let l := len3 (sub3 b a) in
  on_segment a b y <-> exists w, 0 <= w <= l /\ y = along a w (dir a b).
Proof.
  intros N l. destruct (dir_facts a b N) as (Hl & _ & Hd). fold l in Hl, Hd. unfold on_segment. rewrite Hd.
  destruct (dir a b) as [[n0 n1] n2], a as [[a0 a1] a2]. cbn. split.
  - intros (t & Ht & ->). exists (t * l). split; [nra|]. pts; ring.
  - intros (w & Hw & ->). exists (w / l). split.
    + split; [apply Rmult_le_reg_r with l; auto; field_simplify; lra|]. apply Rmult_le_reg_r with l; auto. field_simplify; lra.
    + pts; field; lra.
Qed.
Lemma dist_unit a b p w : a <> b -> dist2 p (along a w (dir a b)) =
  dot3 (sub3 p a) (sub3 p a) - coordinate a b p * coordinate a b p + (w - coordinate a b p) * (w - coordinate a b p).
Proof.
  intros N. destruct (dir_facts a b N) as (_ & Hn & _). unfold coordinate, dist2.
  destruct (dir a b) as [[n0 n1] n2], a as [[a0 a1] a2], p as [[p0 p1] p2]. cbn in *.
  set (s := (p0 - a0) * n0 + (p1 - a1) * n1 + (p2 - a2) * n2).
  transitivity ((p0 - a0) * (p0 - a0) + (p1 - a1) * (p1 - a1) + (p2 - a2) * (p2 - a2) - 2 * w * s + w * w * (n0 * n0 + n1 * n1 + n2 * n2)).
  - unfold s. ring.
  - rewrite Hn. ring.
Qed.
Lemma along_inj a b w w' : a <> b -> along a w (dir a b) = along a w' (dir a b) -> w = w'.
Proof.
  intros N E. destruct (dir_facts a b N) as (_ & Hn & _).
  destruct (dir a b) as [[n0 n1] n2], a as [[a0 a1] a2]. cbn in *. injection E as E0 E1 E2.
  assert ((w - w') * (n0 * n0 + n1 * n1 + n2 * n2) = 0); [|rewrite Hn in H; lra].
  transitivity (((a0 + w * n0) - (a0 + w' * n0)) * n0 + ((a1 + w * n1) - (a1 + w' * n1)) * n1 + ((a2 + w * n2) - (a2 + w' * n2)) * n2); [ring|].
  rewrite E0, E1, E2. ring.
Qed.
Lemma cut_side l s w : 0 < l -> 0 <= w <= l -> 0 <= (Rmax 0 (Rmin l s) - s) * (w - Rmax 0 (Rmin l s)).
Proof.
  intros Hl Hw. destruct (Rle_dec s 0) as [H | H].
  - rewrite (Rmin_right l s) by lra. rewrite Rmax_left by lra. apply Rmult_le_pos; lra.
  - destruct (Rle_dec l s).
    + rewrite Rmin_left by lra. rewrite Rmax_right by lra. replace ((l - s) * (w - l)) with ((s - l) * (l - w)) by ring. apply Rmult_le_pos; lra.
    + rewrite Rmin_right by lra. rewrite Rmax_right by lra. replace (s - s) with 0 by ring. lra.
Qed.
(** the closest point of the segment is where the coordinate, cut to the segment, puts it *)
Lemma closest_unit a b p w : a <> b ->
  (closest a b p (along a w (dir a b)) <-> w = Rmax 0 (Rmin (len3 (sub3 b a)) (coordinate a b p))).
Proof.
  intros N. destruct (dir_facts a b N) as (Hl & _ & _). set (l := len3 (sub3 b a)) in *. set (s := coordinate a b p).
  assert (Hc : 0 <= Rmax 0 (Rmin l s) <= l).
  { split; [apply Rmax_l|]. apply Rmax_lub; [lra|apply Rmin_l]. }
  split.
  - intros [Hs Hd]. apply (segment_unit a b) in Hs; auto. destruct Hs as (w' & Hw & E). apply along_inj in E; auto. subst w'. fold l in Hw.
    specialize (Hd (along a (Rmax 0 (Rmin l s)) (dir a b))).
    rewrite !dist_unit in Hd by auto. fold s in Hd.
    assert (on_segment a b (along a (Rmax 0 (Rmin l s)) (dir a b))) as K.
    { apply segment_unit; auto. fold l. eauto. }
    specialize (Hd K). set (c := Rmax 0 (Rmin l s)) in *.
    assert (P : 0 <= (c - s) * (w - c)) by (apply cut_side; auto).
    assert (Q : (w - c) * (w - c) <= 0) by nra. pose proof (Rle_0_sqr (w - c)) as Q2. unfold Rsqr in Q2.
    assert (Q3 : (w - c) * (w - c) = 0) by lra. apply Rmult_integral in Q3. lra.
  - intros ->. split; [apply segment_unit; auto; fold l; eauto|]. intros z Hz. apply (segment_unit a b) in Hz; auto. fold l in Hz.
    destruct Hz as (w & Hw & ->). rewrite !dist_unit by auto. fold s. set (c := Rmax 0 (Rmin l s)) in *.
    assert (P : 0 <= (c - s) * (w - c)) by (apply cut_side; auto). pose proof (Rle_0_sqr (w - c)) as Q. unfold Rsqr in Q.
    replace ((w - s) * (w - s)) with ((w - c) * (w - c) + 2 * ((c - s) * (w - c)) + (c - s) * (c - s)) by ring. lra.
Qed.

(** ** The model's point *)
Lemma normalized_dir a b : a <> b -> normalized sqrt (pt3 (sub3 b a)) = pt3 (dir a b).
Proof.
  intros N. pose proof (len_pos a b N) as H. unfold normalized, dir, len3.
  replace (vdot (pt3 (sub3 b a)) (pt3 (sub3 b a))) with (dot3 (sub3 b a) (sub3 b a)).
  2:{ destruct (sub3 b a) as [[d0 d1] d2]. unfold vdot. cbn. rnum. ring. }
  rnum. rewrite (proj2 (Rltb_true _ _) H). destruct (sub3 b a) as [[d0 d1] d2]. cbn [pt3 map along].
  set (q := sqrt _). unfold Rdiv. repeat (apply (f_equal2 (@cons R)); [ring|]). reflexivity.
Qed.
Lemma line_point_eq {Rot} (slerp : Rot -> R -> Rot -> Rot) o1 o2 a b p r1 r2 rp ro1 ro2 : a <> b ->
  line_point sqrt slerp (pt3 o1, ro1) (pt3 o2, ro2) (pt3 p, rp) (pt3 a, r1) (pt3 b, r2) =
  let m := code_coordinate a b p in
  (if Rlt_dec 1 m then pt3 o2 else if Rlt_dec m 0 then pt3 o1 else pt3 (along o1 m (dir a b)), slerp r1 m r2).
Proof.
  intros N. unfold line_point. cbn [fst snd].
  replace (vminus (pt3 b) (pt3 a)) with (pt3 (sub3 b a)) by (destruct a as [[a0 a1] a2], b as [[b0 b1] b2]; reflexivity).
  rewrite normalized_dir by auto.
  replace (vdot (map nabs (vminus (pt3 p) (pt3 a))) (pt3 (dir a b))) with (code_coordinate a b p).
  2:{ unfold code_coordinate. destruct (dir a b) as [[d0 d1] d2], a as [[a0 a1] a2], p as [[p0 p1] p2]. unfold vdot. cbn. rnum. ring. }
  cbv zeta. set (m := code_coordinate a b p). rnum. f_equal.
  destruct (Rlt_dec 1 m) as [H | H].
  - rewrite (proj2 (Rltb_true _ _)) by auto. reflexivity.
  - rewrite (proj2 (Rltb_false _ _)) by lra. destruct (Rlt_dec m 0) as [H' | H'].
    + rewrite (proj2 (Rltb_true _ _)) by auto. reflexivity.
    + rewrite (proj2 (Rltb_false _ _)) by lra. destruct (dir a b) as [[d0 d1] d2], o1 as [[a0 a1] a2]. reflexivity.
Qed.

(** C103: for a target frame at the origin (so that the offsets are the ends of the line) the returned point is the
    point of the segment closest to the source exactly when the code's place on the line agrees with the cut
    coordinate: [code_place] jumps to the end at coordinate 1, not at the length, and [code_coordinate] uses absolute
    values *)
Theorem C103_closest_iff : forall {Rot} (slerp : Rot -> R -> Rot -> Rot) a b p r1 r2 rp y r, a <> b ->
  line_point sqrt slerp (pt3 a, r1) (pt3 b, r2) (pt3 p, rp) (pt3 a, r1) (pt3 b, r2) = (pt3 y, r) ->
  (closest a b p y <->
   code_place (len3 (sub3 b a)) (code_coordinate a b p) = Rmax 0 (Rmin (len3 (sub3 b a)) (coordinate a b p))).
Proof.
  intros Rot slerp a b p r1 r2 rp y r N. rewrite line_point_eq by auto. cbv zeta. set (m := code_coordinate a b p).
  destruct (dir_facts a b N) as (_ & _ & Hb). set (l := len3 (sub3 b a)) in *.
  assert (Ha : a = along a 0 (dir a b)) by (destruct (dir a b) as [[d0 d1] d2], a as [[a0 a1] a2]; cbn; pts; ring).
  assert (Hb' : b = along a l (dir a b)).
  { destruct (dir a b) as [[d0 d1] d2], a as [[a0 a1] a2], b as [[b0 b1] b2]. cbn in *. injection Hb as H1 H2 H3. pts; lra. }
  intros E. assert (Hy : y = along a (code_place l m) (dir a b)).
  { unfold code_place. destruct (Rlt_dec 1 m); [|destruct (Rlt_dec m 0)]; injection E as E _;
      try rewrite <- Hb'; try rewrite <- Ha.
    - destruct b as [[b0 b1] b2], y as [[y0 y1] y2]. cbn in E. injection E as -> -> ->. reflexivity.
    - destruct a as [[b0 b1] b2], y as [[y0 y1] y2]. cbn in E. injection E as -> -> ->. reflexivity.
    - destruct (along a m (dir a b)) as [[b0 b1] b2], y as [[y0 y1] y2]. cbn in E. injection E as -> -> ->. reflexivity. }
  rewrite Hy. apply closest_unit. auto.
Qed.
Print Assumptions C103_closest_iff.

(** C103, the part that holds: a segment of length one, and a source not behind its start in any coordinate the
    segment changes, i.e. p_k >= a_k or b_k = a_k for each k *)
Theorem C103_partial : forall {Rot} (slerp : Rot -> R -> Rot -> Rot) a b p r1 r2 rp y r,
  len3 (sub3 b a) = 1 ->
  (let '(a0, a1, a2) := a in let '(b0, b1, b2) := b in let '(p0, p1, p2) := p in
   (a0 <= p0 \/ b0 = a0) /\ (a1 <= p1 \/ b1 = a1) /\ (a2 <= p2 \/ b2 = a2)) ->
  line_point sqrt slerp (pt3 a, r1) (pt3 b, r2) (pt3 p, rp) (pt3 a, r1) (pt3 b, r2) = (pt3 y, r) ->
  closest a b p y /\ r = slerp r1 (coordinate a b p) r2.
Proof.
  intros Rot slerp a b p r1 r2 rp y r Hl Hp E.
  assert (N : a <> b).
  { intros <-. unfold len3 in Hl. destruct a as [[a0 a1] a2]. cbn in Hl.
    replace ((a0 - a0) * (a0 - a0) + (a1 - a1) * (a1 - a1) + (a2 - a2) * (a2 - a2)) with 0 in Hl by ring. rewrite sqrt_0 in Hl. lra. }
  assert (Hm : code_coordinate a b p = coordinate a b p).
  { unfold code_coordinate, coordinate, dir. rewrite Hl. destruct a as [[a0 a1] a2], b as [[b0 b1] b2], p as [[p0 p1] p2]. cbn.
    destruct Hp as (H1 & H2 & H3).
    assert (K : forall u v w, u <= w \/ v = u -> Rabs (w - u) * (0 + / 1 * (v - u)) = (w - u) * (0 + / 1 * (v - u))).
    { intros u v w [H | ->]; [rewrite Rabs_right by lra; ring|]. replace (u - u) with 0 by ring. ring. }
    rewrite !K by auto. reflexivity. }
  split.
  - eapply C103_closest_iff; eauto. rewrite Hl, Hm. unfold code_place. unfold Rmax, Rmin.
    destruct (Rlt_dec 1 (coordinate a b p)), (Rlt_dec (coordinate a b p) 0); repeat destruct Rle_dec; lra.
  - rewrite line_point_eq in E by auto. cbv zeta in E. injection E as _ E. rewrite <- E, Hm. reflexivity.
Qed.
Print Assumptions C103_partial.
Lemma ex_len : len3 (sub3 (3, 0, 1) (2, 0, 1)) = 1.
Proof. unfold len3. cbn. replace ((3 - 2) * (3 - 2) + (0 - 0) * (0 - 0) + (1 - 1) * (1 - 1)) with 1 by ring. apply sqrt_1. Qed.
Example C103_ex : exists y r, line_point sqrt (fun r1 t r2 => r1 + t * (r2 - r1)) (pt3 (2, 0, 1), 0) (pt3 (3, 0, 1), 8) (pt3 (5 / 2, -7, 9), 0) (pt3 (2, 0, 1), 0) (pt3 (3, 0, 1), 8) = (pt3 y, r) /\
  y = (5 / 2, 0, 1) /\ r = 4.
Proof.
  exists (5 / 2, 0, 1), 4. split; [|auto]. rewrite line_point_eq. 2:{ intros E. injection E as E. lra. }
  assert (Hd : dir (2, 0, 1) (3, 0, 1) = (1, 0, 0)) by (unfold dir; rewrite ex_len; cbn; pts; field).
  assert (Hc : code_coordinate (2, 0, 1) (3, 0, 1) (5 / 2, -7, 9) = 1 / 2).
  { unfold code_coordinate. rewrite Hd. cbn. rewrite (Rabs_right (5 / 2 - 2)) by lra. field. }
  cbv zeta. rewrite Hc, Hd. destruct (Rlt_dec 1 (1 / 2)); [lra|]. destruct (Rlt_dec (1 / 2) 0); [lra|]. cbn.
  f_equal; [repeat (apply (f_equal2 (@cons R)); [field|]); reflexivity|field].
Qed.

(** C103 is false in general.  A segment of length 4 from the origin along x, the source above its middle: the code
    returns the far end *)
Lemma x_axis l : 0 < l -> len3 (sub3 (l, 0, 0) (0, 0, 0)) = l.
Proof. intros H. unfold len3. cbn. replace ((l - 0) * (l - 0) + (0 - 0) * (0 - 0) + (0 - 0) * (0 - 0)) with (l * l) by ring. apply sqrt_square. lra. Qed.
Lemma x_dir l : 0 < l -> dir (0, 0, 0) (l, 0, 0) = (1, 0, 0).
Proof. intros H. unfold dir. rewrite x_axis by auto. cbn. pts; field; lra. Qed.
Theorem C103_length_refuted : exists a b p, a <> b /\ (forall (Rot : Type) (slerp : Rot -> R -> Rot -> Rot) r1 r2 rp y r,
  line_point sqrt slerp (pt3 a, r1) (pt3 b, r2) (pt3 p, rp) (pt3 a, r1) (pt3 b, r2) = (pt3 y, r) ->
  y = b /\ ~ closest a b p y /\ closest a b p (2, 0, 0)).
Proof.
  exists (0, 0, 0), (4, 0, 0), (2, 1, 0). assert (N : (0, 0, 0) <> (4, 0, 0)) by (intros E; injection E as E; lra). split; [auto|].
  intros Rot slerp r1 r2 rp y r E.
  assert (Hc : code_coordinate (0, 0, 0) (4, 0, 0) (2, 1, 0) = 2).
  { unfold code_coordinate. rewrite x_dir by lra. cbn. rewrite (Rabs_right (2 - 0)) by lra. ring. }
  assert (Hs : coordinate (0, 0, 0) (4, 0, 0) (2, 1, 0) = 2).
  { unfold coordinate. rewrite x_dir by lra. cbn. ring. }
  pose proof (C103_closest_iff slerp _ _ _ _ _ _ _ _ N E) as K.
  rewrite Hc, Hs, x_axis in K by lra. unfold code_place in K. rewrite line_point_eq in E by auto. cbv zeta in E. rewrite Hc in E.
  destruct (Rlt_dec 1 2) in *; [|lra]. injection E as E _. destruct y as [[y0 y1] y2]. cbn in E. injection E as <- <- <-.
  rewrite Rmin_right in K by lra. rewrite Rmax_right in K by lra.
  split; [reflexivity|]. split; [rewrite K; lra|].
  replace (2, 0, 0) with (along (0, 0, 0) 2 (dir (0, 0, 0) (4, 0, 0))) by (rewrite x_dir by lra; cbn; pts; ring).
  apply closest_unit; auto. rewrite Hs, x_axis by lra. rewrite Rmin_right by lra. rewrite Rmax_right by lra. reflexivity.
Qed.
Print Assumptions C103_length_refuted.
(** a segment of length one, the source one unit behind its start: the code returns the far end *)
Theorem C103_behind_refuted : exists a b p, len3 (sub3 b a) = 1 /\ (forall (Rot : Type) (slerp : Rot -> R -> Rot -> Rot) r1 r2 rp y r,
  line_point sqrt slerp (pt3 a, r1) (pt3 b, r2) (pt3 p, rp) (pt3 a, r1) (pt3 b, r2) = (pt3 y, r) ->
  y = b /\ ~ closest a b p y /\ closest a b p a).
Proof.
  exists (0, 0, 0), (1, 0, 0), (-1, 0, 0). split; [apply x_axis; lra|].
  assert (N : (0, 0, 0) <> (1, 0, 0)) by (intros E; injection E as E; lra).
  intros Rot slerp r1 r2 rp y r E.
  assert (Hc : code_coordinate (0, 0, 0) (1, 0, 0) (-1, 0, 0) = 1).
  { unfold code_coordinate. rewrite x_dir by lra. cbn. rewrite (Rabs_left (-1 - 0)) by lra. ring. }
  assert (Hs : coordinate (0, 0, 0) (1, 0, 0) (-1, 0, 0) = -1).
  { unfold coordinate. rewrite x_dir by lra. cbn. ring. }
  pose proof (C103_closest_iff slerp _ _ _ _ _ _ _ _ N E) as K.
  rewrite Hc, Hs, x_axis in K by lra. unfold code_place in K. rewrite line_point_eq in E by auto. cbv zeta in E. rewrite Hc, x_dir in E by lra.
  destruct (Rlt_dec 1 1) in *; [lra|]. destruct (Rlt_dec 1 0) in *; [lra|]. injection E as E _. destruct y as [[y0 y1] y2]. cbn in E. injection E as <- <- <-.
  rewrite Rmin_right in K by lra. rewrite Rmax_left in K by lra.
  split; [pts; ring|]. split; [rewrite K; lra|].
  assert (K2 : closest (0, 0, 0) (1, 0, 0) (-1, 0, 0) (along (0, 0, 0) 0 (dir (0, 0, 0) (1, 0, 0)))).
  { apply closest_unit; auto. rewrite Hs, x_axis by lra. rewrite Rmin_right by lra. rewrite Rmax_left by lra. reflexivity. }
  rewrite x_dir in K2 by lra. cbn in K2. replace (0 + 0 * 1) with 0 in K2 by ring. replace (0 + 0 * 0) with 0 in K2 by ring. exact K2.
Qed.
Print Assumptions C103_behind_refuted.
(** a segment of length one towards negative x, the source at its far end: the code returns the start *)
Theorem C103_direction_refuted : exists a b, len3 (sub3 b a) = 1 /\ (forall (Rot : Type) (slerp : Rot -> R -> Rot -> Rot) r1 r2 rp y r,
  line_point sqrt slerp (pt3 a, r1) (pt3 b, r2) (pt3 b, rp) (pt3 a, r1) (pt3 b, r2) = (pt3 y, r) ->
  y = a /\ ~ closest a b b y).
Proof.
  exists (0, 0, 0), (-1, 0, 0).
  assert (L : len3 (sub3 (-1, 0, 0) (0, 0, 0)) = 1).
  { unfold len3. cbn. replace ((-1 - 0) * (-1 - 0) + (0 - 0) * (0 - 0) + (0 - 0) * (0 - 0)) with 1 by ring. apply sqrt_1. }
  assert (D : dir (0, 0, 0) (-1, 0, 0) = (-1, 0, 0)) by (unfold dir; rewrite L; cbn; pts; field).
  split; [exact L|]. assert (N : (0, 0, 0) <> (-1, 0, 0)) by (intros E; injection E as E; lra).
  intros Rot slerp r1 r2 rp y r E.
  assert (Hc : code_coordinate (0, 0, 0) (-1, 0, 0) (-1, 0, 0) = -1).
  { unfold code_coordinate. rewrite D. cbn. rewrite (Rabs_left (-1 - 0)) by lra. ring. }
  assert (Hs : coordinate (0, 0, 0) (-1, 0, 0) (-1, 0, 0) = 1).
  { unfold coordinate. rewrite D. cbn. ring. }
  pose proof (C103_closest_iff slerp _ _ _ _ _ _ _ _ N E) as K.
  rewrite Hc, Hs, L in K. unfold code_place in K. rewrite line_point_eq in E by auto. cbv zeta in E. rewrite Hc in E.
  destruct (Rlt_dec 1 (-1)) in *; [lra|]. destruct (Rlt_dec (-1) 0) in *; [|lra]. injection E as E _. destruct y as [[y0 y1] y2]. cbn in E. injection E as <- <- <-.
  split; [reflexivity|]. rewrite K. rewrite Rmin_right by lra. rewrite Rmax_right by lra. lra.
Qed.
Print Assumptions C103_direction_refuted.
(** the target frame displaced by one unit in y: the source on the displaced line, the point returned is off that line *)
Theorem C103_frame_refuted : exists o1 o2 shift p, len3 (sub3 o2 o1) = 1 /\
  let a := along o1 1 shift in let b := along o2 1 shift in
  closest a b p p /\ (forall (Rot : Type) (slerp : Rot -> R -> Rot -> Rot) r1 r2 rp y r,
  line_point sqrt slerp (pt3 o1, r1) (pt3 o2, r2) (pt3 p, rp) (pt3 a, r1) (pt3 b, r2) = (pt3 y, r) -> ~ on_segment a b y).
Proof.
  exists (0, 0, 0), (1, 0, 0), (0, 1, 0), (1 / 2, 1, 0). split; [apply x_axis; lra|]. cbv zeta.
  replace (along (0, 0, 0) 1 (0, 1, 0)) with (0, 1, 0) by (cbn; pts; ring).
  replace (along (1, 0, 0) 1 (0, 1, 0)) with (1, 1, 0) by (cbn; pts; ring).
  assert (N : (0, 1, 0) <> (1, 1, 0)) by (intros E; injection E as E; lra). split.
  - split; [exists (1 / 2); split; [lra|]; cbn; pts; field|]. intros z _.
    assert (0 <= dist2 (1 / 2, 1, 0) z) by apply dot3_pos. unfold dist2 at 1. cbn. lra.
  - intros Rot slerp r1 r2 rp y r E (t & _ & ->).
    assert (L : len3 (sub3 (1, 1, 0) (0, 1, 0)) = 1).
    { unfold len3. cbn. replace ((1 - 0) * (1 - 0) + (1 - 1) * (1 - 1) + (0 - 0) * (0 - 0)) with 1 by ring. apply sqrt_1. }
    assert (D : dir (0, 1, 0) (1, 1, 0) = (1, 0, 0)) by (unfold dir; rewrite L; cbn; pts; field).
    assert (Hc : code_coordinate (0, 1, 0) (1, 1, 0) (1 / 2, 1, 0) = 1 / 2).
    { unfold code_coordinate. rewrite D. cbn. rewrite (Rabs_right (1 / 2 - 0)) by lra. ring. }
    rewrite line_point_eq in E by auto. cbv zeta in E. rewrite Hc, D in E.
    destruct (Rlt_dec 1 (1 / 2)) in E; [lra|]. destruct (Rlt_dec (1 / 2) 0) in E; [lra|]. cbn in E. injection E as _ E _. lra.
Qed.
Print Assumptions C103_frame_refuted.
(** the orientation: with the source at the far end of a segment of length 2 the interpolation is asked for parameter
    2, twice the rotation of that end *)
Theorem C103_slerp_refuted : exists a b, a <> b /\
  forall y r, line_point sqrt (fun r1 t r2 => r1 + t * (r2 - r1)) (pt3 a, 0) (pt3 b, 1) (pt3 b, 1) (pt3 a, 0) (pt3 b, 1) = (pt3 y, r) ->
  y = b /\ r = 2.
Proof.
  exists (0, 0, 0), (2, 0, 0). assert (N : (0, 0, 0) <> (2, 0, 0)) by (intros E; injection E as E; lra). split; [auto|]. intros y r E.
  assert (Hc : code_coordinate (0, 0, 0) (2, 0, 0) (2, 0, 0) = 2).
  { unfold code_coordinate. rewrite x_dir by lra. cbn. rewrite (Rabs_right (2 - 0)) by lra. ring. }
  rewrite line_point_eq in E by auto. cbv zeta in E. rewrite Hc in E. destruct (Rlt_dec 1 2) in E; [|lra]. injection E as E1 E2.
  destruct y as [[y0 y1] y2]. cbn in E1. injection E1 as <- <- <-. split; [reflexivity|]. rewrite <- E2. ring.
Qed.
Print Assumptions C103_slerp_refuted.

(** ** C104: the Jacobian of the line constraint *)
(** it exists only for six indices: with fewer, the code reads indices and writes rows that are not there *)
Lemma six_rows_inv {Rot} index (c : cartline R Rot) cols rows : six_rows index c cols = Val rows -> (6 <= length (cl_indices c))%nat.
Proof.
  intros H. unfold six_rows in H. pose proof (gather_inv _ _ _ H 5%nat) as K. destruct K as [r K]; [cbn; auto 10|].
  destruct (nth_error (cl_indices c) 5) eqn:E; [|discriminate]. assert (nth_error (cl_indices c) 5 <> None) as E2 by congruence.
  apply nth_error_Some in E2. lia.
Qed.
Theorem C104_six : forall {Rot} slerp dof hs ht same o1 o2 indices (coeffs : list R) (c : cartline R Rot) source t1 t2 ed2 geometric add_twist numeric eps index q rows,
  cartline_new dof hs ht same o1 o2 indices coeffs = Val c ->
  cartline_jacobian sqrt slerp source t1 t2 ed2 geometric add_twist numeric eps index c q = Val rows -> length indices = 6%nat.
Proof.
  intros Rot slerp dof hs ht same o1 o2 indices coeffs c source t1 t2 ed2 geo tw numeric eps index q rows Hn H.
  assert (K : (6 <= length (cl_indices c))%nat).
  { unfold cartline_jacobian in H. destruct numeric.
    - destruct (diff_columns _ _ _ _ _ _); try discriminate. eapply six_rows_inv; eauto.
    - destruct (gather_rows _ _); try discriminate. eapply six_rows_inv; eauto. }
  unfold cartline_new in Hn. destruct hs, ht, same; try discriminate. cbn [negb] in Hn. destruct (Nat.ltb_spec 6 (length indices)); [discriminate|].
  destruct (length indices =? 0)%nat; [discriminate|]. destruct (dof =? 0)%nat; [discriminate|]. destruct negb; [discriminate|].
  injection Hn as <-. cbn in K. lia.
Qed.
Print Assumptions C104_six.

(** with six indices below six, numeric: row i holds the forward difference quotients of component
    indices[indices[i]] of the error, not of component indices[i]; the two agree for the default 0..5 *)
Theorem C104_rows : forall {Rot} slerp (c : cartline R Rot) source t1 t2 transform_error ed2 geometric add_twist eps index q,
  length (cl_indices c) = 6%nat -> (forall i, In i (cl_indices c) -> (i < 6)%nat) -> length q = cl_dof c ->
  (forall a b, length (transform_error a b) = 6%nat) -> (forall a a' b b', length (ed2 a a' b b') = 6%nat) ->
  (forall a a' b b' i, (i < 6)%nat -> nth i (ed2 a a' b b') 0 = nth i (transform_error a' b') 0 - nth i (transform_error a b) 0) ->
  let err x := transform_error (nearest sqrt slerp source t1 t2 c x) (source x) in
  let idx i := nth i (cl_indices c) 0%nat in
  exists rows, cartline_jacobian sqrt slerp source t1 t2 ed2 geometric add_twist true eps index c q = Val rows /\ length rows = 6%nat /\
  forall i k, (i < 6)%nat -> (k < cl_dof c)%nat -> length (nth i rows []) = cl_dof c /\
    nth k (nth i rows []) (0%nat, 0) =
    ((index + k)%nat, (nth (idx (idx i)) (err (upd q k (nth k q 0 + eps))) 0 - nth (idx (idx i)) (err q) 0) / eps).
Proof.
  intros Rot slerp c source t1 t2 te ed2 geo tw eps index q H6 Hlt Hq Hte Hl Hed err idx.
  pose (D x := ed2 (nearest sqrt slerp source t1 t2 c q) (nearest sqrt slerp source t1 t2 c x) (source q) (source x)).
  unfold cartline_jacobian.
  rewrite (diff_columns_ok eps q _ (fun x => map (fun i => nth i (D x) 0) (cl_indices c))) by
    (auto; intros x _; unfold cartline_diff; fold (D x); apply select_ok; intros; unfold D; rewrite Hl; auto).
  cbn [rbind]. set (cols := map _ (seq 0 (length q))). assert (Hcl : length cols = cl_dof c) by (unfold cols; rewrite map_length, seq_length; auto).
  unfold six_rows.
  rewrite (gather_ok _ (fun i => map (fun j => ((index + j)%nat, nth (idx i) (nth j cols []) 0)) (seq 0 (cl_dof c)))).
  2:{ intros r Hr. apply in_seq in Hr. rewrite (nth_error_nth' _ 0%nat) by lia. fold (idx r). apply sparse_row_ok; [lia|].
      intros col Hcol. unfold cols in Hcol. apply in_map_iff in Hcol. destruct Hcol as (j & <- & _). rewrite !map_length, H6.
      apply Hlt, nth_In. lia. }
  eexists. split; [reflexivity|]. split; [rewrite map_length, seq_length; reflexivity|]. intros i k Hi Hk.
  rewrite nth_map_seq by auto. split; [rewrite map_length, seq_length; reflexivity|]. rewrite nth_map_seq by auto. f_equal.
  assert (Hii : (idx i < 6)%nat) by (apply Hlt, nth_In; lia). assert (Hiii : (idx (idx i) < 6)%nat) by (apply Hlt, nth_In; lia).
  unfold cols. rewrite nth_map_seq by lia. rewrite (nth_indep _ 0 (0 / eps)) by (rewrite !map_length; lia).
  rewrite (map_nth (fun v => v / eps)). rewrite (nth_indep _ 0 ((fun i => nth i (D (upd q k (nth k q 0 + eps))) 0) 0%nat)) by (rewrite map_length; lia).
  rewrite (map_nth (fun i => nth i (D (upd q k (nth k q 0 + eps))) 0)). fold (idx (idx i)). unfold D. rewrite Hed by auto. reflexivity.
Qed.
Print Assumptions C104_rows.

(** hence for the default indices it is the difference quotient of the values *)
Corollary C104_partial : forall {Rot} slerp (c : cartline R Rot) source t1 t2 transform_error ed2 geometric add_twist eps index q,
  cl_indices c = [0; 1; 2; 3; 4; 5]%nat -> length q = cl_dof c ->
  (forall a b, length (transform_error a b) = 6%nat) -> (forall a a' b b', length (ed2 a a' b b') = 6%nat) ->
  (forall a a' b b' i, (i < 6)%nat -> nth i (ed2 a a' b b') 0 = nth i (transform_error a' b') 0 - nth i (transform_error a b) 0) ->
  exists rows, cartline_jacobian sqrt slerp source t1 t2 ed2 geometric add_twist true eps index c q = Val rows /\ length rows = 6%nat /\
  forall i k v v', (i < 6)%nat -> (k < cl_dof c)%nat ->
    cartline_values sqrt slerp source t1 t2 transform_error c q = Val v ->
    cartline_values sqrt slerp source t1 t2 transform_error c (upd q k (nth k q 0 + eps)) = Val v' ->
    nth k (nth i rows []) (0%nat, 0) = ((index + k)%nat, (nth i v' 0 - nth i v 0) / eps).
Proof.
  intros Rot slerp c source t1 t2 te ed2 geo tw eps index q Hi Hq Hte Hl Hed.
  assert (L6 : forall i, In i (cl_indices c) -> (i < 6)%nat) by (rewrite Hi; cbn; intuition lia).
  destruct (C104_rows slerp c source t1 t2 te ed2 geo tw eps index q) as (rows & H1 & H2 & H3); auto; [rewrite Hi; reflexivity|].
  exists rows. split; [auto|]. split; [auto|]. intros i k v v' Hi6 Hk Hv Hv'. destruct (H3 i k Hi6 Hk) as [_ ->].
  assert (Hii : nth i (cl_indices c) 0%nat = i) by (rewrite Hi; do 6 (destruct i as [|i]; [reflexivity|]); lia).
  rewrite !Hii. unfold cartline_values in Hv, Hv'. rewrite select_ok in Hv, Hv' by (intros; rewrite Hte; auto). injection Hv as <-. injection Hv' as <-.
  rewrite !(nth_indep (map _ _) 0 (nth 0 (@nil R) 0)) by (rewrite map_length, Hi; auto). cbn [nth].
  assert (M : forall g : nat -> R, nth i (map g (cl_indices c)) 0 = g i).
  { intros g. rewrite (nth_indep _ 0 (g 0%nat)) by (rewrite map_length, Hi; auto). rewrite map_nth, Hii. reflexivity. }
  rewrite !M. reflexivity.
Qed.
Print Assumptions C104_partial.

(** ** Examples: the orientation is a number, the arm moves the source by its joint, the line runs from 0 to (1,0,0) *)
Definition lx_slerp (r1 t r2 : R) : R := r1 + t * (r2 - r1).
Definition lx_te (a b : pose R R) : list R :=
  [nth 0 (fst b) 0 - nth 0 (fst a) 0; nth 1 (fst b) 0 - nth 1 (fst a) 0; nth 2 (fst b) 0 - nth 2 (fst a) 0; snd b - snd a; 0; 0].
Definition lx_ed2 (a a' b b' : pose R R) : list R := map (fun i => nth i (lx_te a' b') 0 - nth i (lx_te a b) 0) (seq 0 6).
Definition lx_o1 : pose R R := ([0; 0; 0], 0).
Definition lx_o2 : pose R R := ([1; 0; 0], 0).
Example C104_ex : (forall a b, length (lx_te a b) = 6%nat) /\ (forall a a' b b', length (lx_ed2 a a' b b') = 6%nat) /\
  (forall a a' b b' i, (i < 6)%nat -> nth i (lx_ed2 a a' b b') 0 = nth i (lx_te a' b') 0 - nth i (lx_te a b) 0) /\
  exists c, cartline_new 1 true true false lx_o1 lx_o2 [0; 1; 2; 3; 4; 5]%nat [1; 1; 1; 1; 1; 1] = Val c.
Proof.
  split; [reflexivity|]. split; [reflexivity|]. split; [intros; unfold lx_ed2; rewrite nth_map_seq by auto; reflexivity|]. eexists; reflexivity.
Qed.

(** C104 fails for other indices: a constraint over five components has no Jacobian at all, though it has values *)
Theorem C104_fewer_refuted : exists (c : cartline R R) v,
  cartline_new 1 true true false lx_o1 lx_o2 [0; 1; 2; 3; 4]%nat [1; 1; 1; 1; 1] = Val c /\
  let source q := ([1 / 2; nth 0 q 0; 0], 0) in
  cartline_values sqrt lx_slerp source (fun _ => lx_o1) (fun _ => lx_o2) lx_te c [3] = Val v /\
  forall numeric eps index geometric add_twist rows,
    cartline_jacobian sqrt lx_slerp source (fun _ => lx_o1) (fun _ => lx_o2) lx_ed2 geometric add_twist numeric eps index c [3] <> Val rows.
Proof.
  eexists. eexists. split; [reflexivity|]. cbv zeta. split; [unfold cartline_values; rewrite select_ok; [reflexivity|cbn; intuition lia]|].
  intros numeric eps index geo tw rows H.
  apply (C104_six lx_slerp 1 true true false lx_o1 lx_o2 [0; 1; 2; 3; 4]%nat [1; 1; 1; 1; 1]) in H; [discriminate|reflexivity].
Qed.
Print Assumptions C104_fewer_refuted.

(** and with the order of the components changed the rows belong to other components than the values: row 0 of the
    values is y, row 0 of the Jacobian is z *)
Theorem C104_order_refuted : exists (c : cartline R R) rows v v',
  cartline_new 1 true true false lx_o1 lx_o2 [1; 2; 0; 3; 4; 5]%nat [1; 1; 1; 1; 1; 1] = Val c /\
  let source q := ([1 / 2; nth 0 q 0; 0], 0) in
  cartline_jacobian sqrt lx_slerp source (fun _ => lx_o1) (fun _ => lx_o2) lx_ed2 (fun _ => []) (fun p _ _ => p) true 1 0 c [3] = Val rows /\
  cartline_values sqrt lx_slerp source (fun _ => lx_o1) (fun _ => lx_o2) lx_te c [3] = Val v /\
  cartline_values sqrt lx_slerp source (fun _ => lx_o1) (fun _ => lx_o2) lx_te c [3 + 1] = Val v' /\
  nth 0 v' 0 - nth 0 v 0 = 1 /\ nth 0 (nth 0 rows []) (0%nat, 0) = (0%nat, 0).
Proof.
  set (c := {| cl_dof := 1; cl_o1 := lx_o1; cl_o2 := lx_o2; cl_indices := [1; 2; 0; 3; 4; 5]%nat; cl_coeffs := [1; 1; 1; 1; 1; 1];
               cl_bounds := repeat bound_zero 6 |}).
  set (source := fun q : list R => ([1 / 2; nth 0 q 0; 0], 0)).
  destruct (C104_rows lx_slerp c source (fun _ => lx_o1) (fun _ => lx_o2) lx_te lx_ed2 (fun _ => []) (fun p _ _ => p) 1 0 [3])
    as (rows & H1 & H2 & H3); try reflexivity; [cbn; intuition lia|intros; unfold lx_ed2; rewrite nth_map_seq by auto; reflexivity|].
  assert (Hnear : forall x, fst (nearest sqrt lx_slerp source (fun _ => lx_o1) (fun _ => lx_o2) c [x]) = [1 / 2; 0; 0]).
  { intros x. unfold nearest. change lx_o1 with (pt3 (0, 0, 0), 0). change lx_o2 with (pt3 (1, 0, 0), 0). change (source [x]) with (pt3 (1 / 2, x, 0), 0). cbn [cl_o1 cl_o2 c].
    change lx_o1 with (pt3 (0, 0, 0), 0). change lx_o2 with (pt3 (1, 0, 0), 0).
    rewrite line_point_eq by (intros E; injection E as E; lra). cbv zeta.
    assert (Hc : code_coordinate (0, 0, 0) (1, 0, 0) (1 / 2, x, 0) = 1 / 2).
    { unfold code_coordinate. rewrite x_dir by lra. cbn. rewrite (Rabs_right (1 / 2 - 0)) by lra. ring. }
    rewrite Hc, x_dir by lra. destruct (Rlt_dec 1 (1 / 2)); [lra|]. destruct (Rlt_dec (1 / 2) 0); [lra|]. cbn.
    repeat (apply (f_equal2 (@cons R)); [field|]). reflexivity. }
  exists c, rows. eexists. eexists. split; [reflexivity|]. cbv zeta. fold source. split; [exact H1|].
  unfold cartline_values. rewrite !select_ok by (cbn; intuition lia). split; [reflexivity|]. split; [reflexivity|]. split.
  - cbn [map cl_indices c nth]. unfold lx_te. cbn [nth]. rewrite !Hnear. cbn. ring.
  - destruct (H3 0%nat 0%nat) as [_ ->]; [lia|cbn; lia|]. cbn [cl_indices c nth plus upd]. f_equal. unfold lx_te. cbn [nth].
    change (upd [3] 0 (3 + 1)) with [3 + 1]. rewrite !Hnear. cbn. field.
Qed.
Print Assumptions C104_order_refuted.

(** ** C105: construction *)
(** a line constraint exists for two known links, different ends, one to six components with a coefficient each;
    it asks for the error to vanish in each of them *)
Theorem C105_accepts : forall {Rot} dof hs ht same (o1 o2 : pose R Rot) indices coeffs,
  (dof <> 0)%nat ->
  ((exists c, cartline_new dof hs ht same o1 o2 indices coeffs = Val c) <->
   hs = true /\ ht = true /\ same = false /\ (1 <= length indices <= 6)%nat /\ length coeffs = length indices) /\
  (forall c, cartline_new dof hs ht same o1 o2 indices coeffs = Val c ->
   length (cl_bounds c) = length indices /\ cl_indices c = indices /\ cl_coeffs c = coeffs /\
   forall v, length v = length indices -> (Forall2 within (cl_bounds c) v <-> Forall (fun x => x = 0) v)).
Proof.
  intros Rot dof hs ht same o1 o2 indices coeffs Hd. unfold cartline_new. split.
  - split.
    + intros [c H]. destruct hs, ht, same; try discriminate. cbn [negb] in H. destruct (Nat.ltb_spec 6 (length indices)); [discriminate|].
      destruct (Nat.eqb_spec (length indices) 0); [discriminate|]. destruct (Nat.eqb_spec dof 0); [contradiction|].
      destruct (Nat.eqb_spec (length coeffs) (length indices)); [|discriminate]. repeat split; auto; lia.
    + intros (-> & -> & -> & H1 & H2). cbn [negb]. destruct (Nat.ltb_spec 6 (length indices)); [lia|].
      destruct (Nat.eqb_spec (length indices) 0); [lia|]. destruct (Nat.eqb_spec dof 0); [contradiction|].
      rewrite H2, Nat.eqb_refl. cbn. eauto.
  - intros c H. destruct hs, ht, same; try discriminate. cbn [negb] in H. destruct (6 <? length indices)%nat; [discriminate|].
    destruct (length indices =? 0)%nat; [discriminate|]. destruct (dof =? 0)%nat; [discriminate|]. destruct negb; [discriminate|].
    injection H as <-. cbn [cl_bounds cl_indices cl_coeffs]. rewrite repeat_length. repeat split; auto.
    + revert v H. induction (length indices) as [|n IH]; intros v Hv F.
      * destruct v; [constructor|discriminate].
      * destruct v as [|x v]; [discriminate|]. cbn in F. inversion F as [|? ? ? ? K1 K2]; subst. constructor; [|apply IH; auto].
        destruct K1 as [K1 K3]. specialize (K1 0 eq_refl). specialize (K3 0 eq_refl). lra.
    + revert v H. induction (length indices) as [|n IH]; intros v Hv F.
      * destruct v; [constructor|discriminate].
      * destruct v as [|x v]; [discriminate|]. inversion F as [|? ? K1 K2]; subst. cbn. constructor; [|apply IH; auto].
        split; intros z Hz; injection Hz as <-; cbn; rnum; lra.
Qed.
Print Assumptions C105_accepts.
Example C105_ex : exists c, cartline_new 1 true true false lx_o1 lx_o2 [0; 1]%nat [1; 1] = Val c.
Proof. eexists; reflexivity. Qed.

(** the bounds a constraint of fewer than six components reports cannot be set on it: setBounds asserts six *)
Theorem C105_set_bounds_refuted : exists (c : cartline R R),
  cartline_new 1 true true false lx_o1 lx_o2 [0; 1]%nat [1; 1] = Val c /\ cartline_set_bounds c (cl_bounds c) = Bad.
Proof. eexists. split; reflexivity. Qed.
Print Assumptions C105_set_bounds_refuted.
