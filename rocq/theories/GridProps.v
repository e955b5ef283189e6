(** * C149: the integer grid of the bundled convex hull *)
From Coq Require Import List ZArith Reals QArith Lra Lia Bool.
From Verif Require Import Common Num NumFacts GridModel GridSpec GridProofs.
Import ListNotations.
Local Open Scope R_scope.

(** Whatever the points are, their frame has three different axes, ordered by the extents of the
    points; each point becomes a point of the grid, with coordinates of at most 5108. *)
Theorem C149_grid (ps : list (gvec R)) p : In p ps ->
  let f := frame_of ps in
  (is_axis (amin f) /\ is_axis (amed f) /\ is_axis (amax f) /\ amin f <> amed f /\ amed f <> amax f /\ amin f <> amax f) /\
  (moderate ps -> forall e0 e1 e2, extent ps (amin f) e0 -> extent ps (amed f) e1 -> extent ps (amax f) e2 -> e0 <= e1 <= e2) /\
  exists q, to_point truncR f p = Ok q /\ in_box 5108 q.
Proof.
  intros hp f. destruct (place_R ps p) as (d & x & n & h1 & ho & h3 & h4 & h5 & _). fold f in h3, h4, h5.
  assert (ax : is_axis n /\ is_axis d /\ is_axis x /\ n <> d /\ d <> x /\ n <> x).
  { unfold is_axis.
    destruct h1 as [(-> & -> & ->)|[(-> & -> & ->)|[(-> & -> & ->)|[(-> & -> & ->)|[(-> & -> & ->)|(-> & -> & ->)]]]]]; lia. }
  rewrite h3, h4, h5. split; [exact ax|]. split.
  - intros mo e0 e1 e2 q0 q1 q2. assert (ne : ps <> []) by (intros ->; destruct hp).
    destruct ax as (a0 & a1 & a2 & _).
    rewrite (ext_extent ps n e0 ne mo a0 q0), (ext_extent ps d e1 ne mo a1 q1), (ext_extent ps x e2 ne mo a2 q2). exact ho.
  - destruct (to_point_R ps p hp) as (d' & x' & n' & _ & _ & _ & _ & q & b). eauto.
Qed.
Print Assumptions C149_grid.

(** Back in coordinates, a point of the grid is no farther from the point it came from, along each
    axis, than the 10216th part of the extent of the points, and within their box. *)
Theorem C149_back (ps : list (gvec R)) p : In p ps -> moderate ps ->
  exists q b, to_point truncR (frame_of ps) p = Ok q /\ get_coordinates (frame_of ps) q = Ok b /\
  forall i, is_axis i ->
    (forall e, extent ps i e -> Rabs (co b i - co p i) <= e / 10216) /\
    (forall lo hi, (forall r, In r ps -> lo <= co r i <= hi) -> lo <= co b i <= hi).
Proof.
  intros hp mo. assert (ne : ps <> []) by (intros ->; destruct hp).
  destruct (back_R ps p hp) as (q & b & s & hs & e1 & e2 & e3). exists q, b. split; [exact e1|]. split; [exact e2|].
  intros i ai. rewrite (e3 i ai). destruct (home_ok ps s p i hs hp) as (k1 & k2). split.
  - intros e he. rewrite (ext_extent ps i e ne mo ai he). exact k1.
  - intros lo hi hr. destruct (mn_in ps i ne mo ai) as (u & hu & eu). destruct (mx_in ps i ne mo ai) as (v & hv & ev).
    pose proof (hr u hu). pose proof (hr v hv). lra.
Qed.
Print Assumptions C149_back.

(** Before it is rounded, the frame has the orientation of the coordinates: whichever axes are
    exchanged, the determinant of any four points keeps its sign. *)
Theorem C149_orientation (ps : list (gvec R)) : exists K, 0 < K /\
  forall a b c d, In a ps -> In b ps -> In c ps -> In d ps ->
  exists a' b' c' d', place (frame_of ps) a = Ok a' /\ place (frame_of ps) b = Ok b' /\
    place (frame_of ps) c = Ok c' /\ place (frame_of ps) d = Ok d' /\ det a' b' c' d' = K * det a b c d.
Proof.
  destruct (place_R ps (GV 0 0 0)) as (d0 & x & n & h1 & _ & h3 & h4 & h5 & _).
  set (s := sgn_of d0 x n). set (k i := kinv s (ext ps i)).
  assert (P : forall p, place (frame_of ps) p =
    Ok (GV ((co p d0 - cen ps d0) * k d0) ((co p x - cen ps x) * k x) ((co p n - cen ps n) * k n))).
  { intros p. destruct (place_R ps p) as (d' & x' & n' & _ & _ & q1 & q2 & q3 & q4).
    assert (d' = d0 /\ x' = x /\ n' = n) as (-> & -> & ->) by (repeat split; congruence). exact q4. }
  assert (D : forall a b c d, det (GV ((co a d0 - cen ps d0) * k d0) ((co a x - cen ps x) * k x) ((co a n - cen ps n) * k n))
      (GV ((co b d0 - cen ps d0) * k d0) ((co b x - cen ps x) * k x) ((co b n - cen ps n) * k n))
      (GV ((co c d0 - cen ps d0) * k d0) ((co c x - cen ps x) * k x) ((co c n - cen ps n) * k n))
      (GV ((co d d0 - cen ps d0) * k d0) ((co d x - cen ps x) * k x) ((co d n - cen ps n) * k n)) =
      s * (k 0%Z * k 1%Z * k 2%Z) * det a b c d).
  { intros a b c d. exact (det_place k (cen ps) d0 x n a b c d h1). }
  destruct ps as [|p0 ps']; [exists 1; split; [lra|]; intros a b c d []|]. set (ps := p0 :: ps') in *.
  assert (N : forall i, 0 <= ext ps i) by (intros i; apply ext_nonneg; discriminate).
  destruct (Req_dec (ext ps 0%Z) 0) as [z|z0]; [|destruct (Req_dec (ext ps 1%Z) 0) as [z|z1];
    [|destruct (Req_dec (ext ps 2%Z) 0) as [z|z2]]].
  1-3: exists 1; split; [lra|]; intros a b c d ha hb hc hd; rewrite !P; eexists _, _, _, _;
    (split; [reflexivity|]); (split; [reflexivity|]); (split; [reflexivity|]); (split; [reflexivity|]); rewrite D;
    assert (det a b c d = 0) as -> by (eapply det_flat; [|exact z| | | |]; auto; unfold is_axis; auto); ring.
  pose proof (N 0%Z) as n0. pose proof (N 1%Z) as n1. pose proof (N 2%Z) as n2.
  destruct (kinv_pos s (ext ps 0%Z)) as (k0 & p1); [lra|]. destruct (kinv_pos s (ext ps 1%Z)) as (k1 & p2); [lra|].
  destruct (kinv_pos s (ext ps 2%Z)) as (k2 & p3); [lra|].
  exists (10216 / ext ps 0%Z * (10216 / ext ps 1%Z) * (10216 / ext ps 2%Z)).
  split; [apply Rmult_lt_0_compat; [apply Rmult_lt_0_compat; assumption|assumption]|].
  intros a b c d ha hb hc hd. rewrite !P. eexists _, _, _, _.
  split; [reflexivity|]. split; [reflexivity|]. split; [reflexivity|]. split; [reflexivity|]. rewrite D. unfold k.
  rewrite k0, k1, k2. destruct (sgn_cases d0 x n) as [q|q]; fold s in q; rewrite q; ring.
Qed.
Print Assumptions C149_orientation.

(** The grid is small enough: what merging computes from points of the grid, [prev] being possibly
    one off it, in 32 and 64 bits, is exact, and not the least [int64_t] (see C147). *)
Theorem C149_exact prev a b start target :
  in_box 5109 prev -> in_box 5108 a -> in_box 5108 b -> in_box 5108 start -> in_box 5108 target ->
  let s := zminus (zof b) (zof a) in let r := zminus (zof prev) (zof a) in let t := zminus (zof target) (zof start) in
  let num := zdot t (zcross s (zcross r s)) in let den := zdot t (zcross r s) in
  cotangent prev a b start target = Ok (num, den) /\ (Z.abs num < 2 ^ 63)%Z /\ (Z.abs den < 2 ^ 63)%Z.
Proof.
  intros hp ha hb hs ht s r t num den. unfold cotangent.
  destruct (psub_ok b a 5108 5108 hb ha) as (s' & e1 & z1 & b1); [reflexivity|]. rewrite e1. cbn [obind].
  destruct (psub_ok prev a 5109 5108 hp ha) as (r' & e2 & z2 & b2); [reflexivity|]. rewrite e2. cbn [obind].
  destruct (cross32_ok r' s' _ _ b2 b1) as (c' & e3 & z3 & b3); [reflexivity|]. rewrite e3. cbn [obind].
  destruct (cross64_ok s' c' _ _ b1 b3) as (d' & e4 & z4 & b4); [reflexivity|]. rewrite e4. cbn [obind].
  destruct (psub_ok target start 5108 5108 ht hs) as (t' & e5 & z5 & b5); [reflexivity|]. rewrite e5. cbn [obind].
  destruct (dot3264_ok t' d' _ _ b5 b4) as (e6 & b6); [reflexivity|]. rewrite e6. cbn [obind].
  destruct (dot3264_ok t' c' _ _ b5 b3) as (e7 & b7); [reflexivity|]. rewrite e7. cbn [obind].
  rewrite z4, z3, z5, z2, z1 in *. fold s r t in b6, b7 |- *. fold num in b6 |- *. fold den in b7 |- *.
  split; [reflexivity|]. clearbody num den. clear - b6 b7. change (2 ^ 63)%Z with 9223372036854775808%Z. lia.
Qed.
Print Assumptions C149_exact.

(** So is what decides how two edges turn. *)
Theorem C149_turn s t p o n :
  in_box 10216 s -> in_box 10216 t -> in_box 5108 p -> in_box 5108 o -> in_box 5108 n ->
  orientation s t p o n =
    Ok (zdot (zcross (zof t) (zof s)) (zcross (zminus (zof p) (zof o)) (zminus (zof n) (zof o)))).
Proof.
  intros hs ht hp ho hn. unfold orientation.
  destruct (cross32_ok t s _ _ ht hs) as (k & e1 & z1 & b1); [reflexivity|]. rewrite e1. cbn [obind].
  destruct (psub_ok p o 5108 5108 hp ho) as (u & e2 & z2 & b2); [reflexivity|]. rewrite e2. cbn [obind].
  destruct (psub_ok n o 5108 5108 hn ho) as (v & e3 & z3 & b3); [reflexivity|]. rewrite e3. cbn [obind].
  destruct (cross32_ok u v _ _ b2 b3) as (m & e4 & z4 & b4); [reflexivity|]. rewrite e4. cbn [obind].
  destruct (dot64_ok k m _ _ b1 b4) as (e5 & _); [reflexivity|]. rewrite e5, z1, z4, z2, z3. reflexivity.
Qed.
Print Assumptions C149_turn.

(** ** Examples, with rational numbers *)
Definition truncQ (q : Q) : Z := Z.quot (Qnum q) (Zpos (Qden q)).
Example C149_ex_box : map (to_point truncQ (frame_of [GV 0 0 0; GV 4 2 1; GV 1 1 1]%Q)) [GV 0 0 0; GV 4 2 1; GV 1 1 1]%Q =
  [Ok (P32 5108 5108 5108); Ok (P32 (-5108) (-5108) (-5108)); Ok (P32 0 2554 (-5108))].
Proof. vm_compute. reflexivity. Qed.
Example C149_ex_back : get_coordinates (frame_of [GV 0 0 0; GV 4 2 1; GV 1 1 1]%Q) (P32 0 2554 (-5108)) = Ok (GV 1 1 1)%Q.
Proof. vm_compute. reflexivity. Qed.
Example C149_ex_real : exists p, In p [GV 0 0 0; GV 4 2 1] /\ moderate [GV 0 0 0; GV 4 2 1] /\ extent [GV 0 0 0; GV 4 2 1] 0 4.
Proof.
  exists (GV 0 0 0). split; [now left|]. assert (1 <= 10 ^ 29) by (apply pow_R1_Rle; lra).
  assert (10 ^ 30 = 10 * 10 ^ 29) by reflexivity. split.
  - intros p i [<-|[<-|[]]] [->|[->| ->]]; unfold co; cbn [Z.eqb c0 c1 c2 Pos.eqb]; lra.
  - split.
    + intros p q [<-|[<-|[]]] [<-|[<-|[]]]; unfold co; cbn; lra.
    + exists (GV 4 2 1), (GV 0 0 0). split; [right; now left|]. split; [now left|]. unfold co; cbn; lra.
Qed.
Example C149_ex_cotangent :
  cotangent (P32 0 17 5109) (P32 5108 5108 5108) (P32 (-5108) (-5108) (-5108)) (P32 5108 (-5108) 5108) (P32 (-5108) 5108 0) =
  Ok (-5383826171485952, -1065531374432)%Z.
Proof. vm_compute. reflexivity. Qed.
Example C149_ex_turn :
  orientation (P32 10216 (-10216) 0) (P32 0 0 (-1)) (P32 5108 5108 5108) (P32 0 0 0) (P32 (-5108) 5108 7) = Ok 533104878848%Z.
Proof. vm_compute. reflexivity. Qed.

(** ** What does not hold *)

(** Different points may become one point of the grid, and four points that span a positive volume
    may span a negative one there. *)
Theorem C149_distinct_refuted : exists ps (p q : gvec Q) r, In p ps /\ In q ps /\ (c0 p < c0 q)%Q /\
  to_point truncQ (frame_of ps) p = Ok r /\ to_point truncQ (frame_of ps) q = Ok r.
Proof.
  exists [GV 0 0 0; GV 10216 10216 10216; GV 5107.5 5108 5108; GV 5108.5 5108 5108]%Q.
  exists (GV 5107.5 5108 5108)%Q, (GV 5108.5 5108 5108)%Q, (P32 0 0 0).
  split; [cbn; tauto|]. split; [cbn; tauto|]. split; [reflexivity|]. split; vm_compute; reflexivity.
Qed.
Print Assumptions C149_distinct_refuted.

Definition qdet (a b c d : gvec Q) : Q :=
  ((c0 b - c0 a) * ((c1 c - c1 a) * (c2 d - c2 a) - (c2 c - c2 a) * (c1 d - c1 a))
   - (c1 b - c1 a) * ((c0 c - c0 a) * (c2 d - c2 a) - (c2 c - c2 a) * (c0 d - c0 a))
   + (c2 b - c2 a) * ((c0 c - c0 a) * (c1 d - c1 a) - (c1 c - c1 a) * (c0 d - c0 a)))%Q.
Theorem C149_turn_refuted : exists (a b c d : gvec Q) a' b' c' d', let f := frame_of [a; b; c; d] in
  to_point truncQ f a = Ok a' /\ to_point truncQ f b = Ok b' /\ to_point truncQ f c = Ok c' /\ to_point truncQ f d = Ok d' /\
  (0 < qdet a b c d)%Q /\
  (zdot (zminus (zof b') (zof a')) (zcross (zminus (zof c') (zof a')) (zminus (zof d') (zof a'))) < 0)%Z.
Proof.
  exists (GV (-5108) (-5108) (-5108))%Q, (GV 5108 5108 5108)%Q, (GV 1 (-1) (-7 # 4))%Q, (GV (-3 # 4) (3 # 2) 2)%Q.
  exists (P32 5108 5108 5108), (P32 (-5108) (-5108) (-5108)), (P32 1 (-1) 1), (P32 (-1) 0 (-2)).
  cbv zeta. split; [vm_compute; reflexivity|]. split; [vm_compute; reflexivity|]. split; [vm_compute; reflexivity|].
  split; [vm_compute; reflexivity|]. split; vm_compute; reflexivity.
Qed.
Print Assumptions C149_turn_refuted.
