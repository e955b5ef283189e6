(** Proofs about the triangle mesh. *)
From Coq Require Import List ZArith Reals Permutation Lra Lia Bool.
From Verif Require Import Common Num NumFacts RSums MeshModel MeshSpec.
Import ListNotations.
Local Open Scope R_scope.

Lemma point_at_ok (ps : list pt) i : is_index (length ps) i -> point_at ps i = Ok (nth_pt ps i).
Proof.
  intros [H1 H2]. unfold point_at, nth_pt.
  replace (i <? 0)%Z with false by (symmetry; apply Z.ltb_ge; lia).
  rewrite (nth_error_nth' ps origin) by lia. reflexivity.
Qed.

Lemma corners_ok (ps : list pt) i j k :
  is_index (length ps) i -> is_index (length ps) j -> is_index (length ps) k ->
  corners ps (i, j, k) = Ok (nth_pt ps i, nth_pt ps j, nth_pt ps k).
Proof. intros. unfold corners. rewrite !point_at_ok by assumption. reflexivity. Qed.

Lemma in_range_cons (ps : list pt) i j k ts :
  in_range ps ((i, j, k) :: ts) ->
  (is_index (length ps) i /\ is_index (length ps) j /\ is_index (length ps) k) /\ in_range ps ts.
Proof. intros H. split; [apply H; now left|]. intros a b c Hin. apply H. now right. Qed.

(** ** Volume *)
Definition tri_det (ps : list pt) (d : pt) (t : mtri) : R :=
  let '(i, j, k) := t in
  det3 (minus (nth_pt ps i) d) (minus (nth_pt ps j) d) (minus (nth_pt ps k) d).

Lemma volume4_det (a b c d : pt) : volume4 a b c d = det3 (minus a d) (minus b d) (minus c d).
Proof. unfold volume4, mv_dot, mv_sub, mv_cross, det3, minus; cbn. ring. Qed.

Lemma volume_loop_ok (ps : list pt) bary ts : forall acc,
  in_range ps ts -> volume_loop ps bary ts acc = Ok (acc + rsum (tri_det ps bary) ts).
Proof.
  induction ts as [|[[i j] k] ts IH]; intros acc Hr.
  - cbn. rewrite rsum_nil. f_equal. ring.
  - apply in_range_cons in Hr. destruct Hr as [(Hi & Hj & Hk) Hr].
    cbn [volume_loop]. rewrite (corners_ok ps i j k Hi Hj Hk). cbn [obind].
    rewrite IH by assumption. rewrite rsum_cons, volume4_det. cbn [tri_det].
    f_equal. cbn [nadd R_Num]. ring.
Qed.

Lemma volume_value (m : mesh R) :
  in_range (m_points m) (m_triangles m) ->
  compute_volume m =
  Ok (rsum (tri_det (m_points m) (barycenter (m_points m))) (m_triangles m) / 6).
Proof.
  intros Hr. unfold compute_volume.
  destruct (m_triangles m) as [|t ts] eqn:E.
  - rewrite rsum_nil. replace (0 / 6) with 0 by field. destruct (m_points m); reflexivity.
  - destruct (m_points m) as [|p ps] eqn:Ep.
    + exfalso. destruct t as [[i j] k].
      destruct (Hr i j k (or_introl eq_refl)) as [[H1 H2] _]. cbn in H2. lia.
    + rewrite volume_loop_ok by assumption. cbn [obind]. f_equal. cbn [nzero ndiv nofZ R_Num].
      f_equal. ring.
Qed.

(** The part of the determinant sum that depends on the reference point is a sum over the
    edges, and cancels. *)
Definition edge_part (ps : list pt) (d : pt) (e : Z * Z) : R :=
  det3 d (nth_pt ps (fst e)) (nth_pt ps (snd e)).

Lemma edge_part_swap ps d e : edge_part ps d (snd e, fst e) = - edge_part ps d e.
Proof. unfold edge_part, det3; cbn. ring. Qed.

Lemma closed_edges ps d ts : closed ts -> rsum (edge_part ps d) (edges ts) = 0.
Proof.
  intros Hc. pose proof (rsum_perm (edge_part ps d) _ _ Hc) as H.
  rewrite rsum_map in H.
  rewrite (rsum_ext (fun a => edge_part ps d (snd a, fst a)) (fun a => -1 * edge_part ps d a)) in H.
  - rewrite rsum_scal in H. lra.
  - intros e _. rewrite edge_part_swap. ring.
Qed.

Lemma tri_det_split ps d ts :
  rsum (tri_det ps d) ts =
  rsum (fun t : mtri => let '(i, j, k) := t in det3 (nth_pt ps i) (nth_pt ps j) (nth_pt ps k)) ts
  - rsum (edge_part ps d) (edges ts).
Proof.
  induction ts as [|[[i j] k] ts IH]; [cbn [edges flat_map]; rewrite !rsum_nil; ring|].
  unfold edges in *. cbn [flat_map]. rewrite rsum_app, !rsum_cons, rsum_nil, IH.
  unfold tri_det, edge_part, det3, minus; cbn [fst snd vx vy vz]. ring.
Qed.

Lemma volume_closed (m : mesh R) :
  in_range (m_points m) (m_triangles m) -> closed (m_triangles m) ->
  compute_volume m = Ok (enclosed (m_points m) (m_triangles m)).
Proof.
  intros Hr Hc. rewrite volume_value by assumption. rewrite tri_det_split, closed_edges by assumption.
  unfold enclosed. do 2 f_equal. ring.
Qed.

(** Affine maps. *)
Lemma nth_pt_map (f : pt -> pt) (ps : list pt) i :
  is_index (length ps) i -> nth_pt (map f ps) i = f (nth_pt ps i).
Proof.
  intros [H1 H2]. unfold nth_pt. rewrite (nth_indep _ origin (f origin)) by (rewrite map_length; lia).
  apply map_nth.
Qed.

Lemma bary_sum (l : list pt) : forall z,
  fold_left mv_add l z =
  MV (vx z + rsum vx l) (vy z + rsum vy l) (vz z + rsum vz l).
Proof.
  induction l as [|p l IH]; intros z.
  - cbn. rewrite !rsum_nil, !Rplus_0_r. destruct z; reflexivity.
  - cbn [fold_left]. rewrite IH, !rsum_cons. unfold mv_add; cbn. f_equal; ring.
Qed.

Lemma bary_affine e1 e2 e3 o (ps : list pt) :
  ps <> [] -> barycenter (map (affine e1 e2 e3 o) ps) = affine e1 e2 e3 o (barycenter ps).
Proof.
  intros Hne. unfold barycenter. rewrite map_length, !bary_sum. cbn [vx vy vz].
  assert (Hn : IZR (Z.of_nat (length ps)) <> 0).
  { destruct ps; [easy|]. cbn [length]. rewrite Nat2Z.inj_succ, succ_IZR.
    pose proof (IZR_le 0 (Z.of_nat (length ps)) ltac:(lia)). lra. }
  assert (Hk : forall k : R, rsum (fun _ : pt => k) ps = k * IZR (Z.of_nat (length ps))).
  { intros k. clear Hne Hn. induction ps as [|p ps IH]; [rewrite rsum_nil; cbn; ring|].
    rewrite rsum_cons, IH. cbn [length]. rewrite Nat2Z.inj_succ, succ_IZR. ring. }
  rewrite !rsum_map. unfold affine, mv_div. cbn [vx vy vz].
  rewrite !rsum_plus, !rsum_scal_r, !Hk.
  cbn [nzero R_Num ndiv nofZ].
  generalize dependent (IZR (Z.of_nat (length ps))). intros n Hn _.
  generalize (rsum vx ps) (rsum vy ps) (rsum vz ps). intros x y z.
  f_equal; field; assumption.
Qed.

Lemma in_range_map (f : pt -> pt) ps ts : in_range ps ts -> in_range (map f ps) ts.
Proof. intros H i j k Hin. rewrite map_length. now apply H. Qed.

Lemma det3_affine e1 e2 e3 o (a b c d : pt) :
  let A := affine e1 e2 e3 o in
  det3 (minus (A a) (A d)) (minus (A b) (A d)) (minus (A c) (A d)) =
  det3 e1 e2 e3 * det3 (minus a d) (minus b d) (minus c d).
Proof. cbn. unfold det3, minus, affine; cbn. ring. Qed.

Lemma in_range_ne (ps : list pt) t ts : in_range ps (t :: ts) -> ps <> [].
Proof.
  intros Hr ->. destruct t as [[i j] k].
  destruct (Hr i j k (or_introl eq_refl)) as [[H1 H2] _]. cbn in H2. lia.
Qed.

Lemma rsum_tri_affine e1 e2 e3 o ps d ts :
  in_range ps ts ->
  rsum (tri_det (map (affine e1 e2 e3 o) ps) (affine e1 e2 e3 o d)) ts =
  det3 e1 e2 e3 * rsum (tri_det ps d) ts.
Proof.
  intros Hr. rewrite <- rsum_scal. apply rsum_ext. intros [[i j] k] Hin.
  destruct (Hr i j k Hin) as (Hi & Hj & Hk).
  unfold tri_det. rewrite !nth_pt_map by assumption. apply det3_affine.
Qed.

Lemma volume_affine (m m' : mesh R) e1 e2 e3 o :
  in_range (m_points m) (m_triangles m) ->
  made_of m' (map (affine e1 e2 e3 o) (m_points m)) (m_triangles m) ->
  exists v, compute_volume m = Ok v /\ compute_volume m' = Ok (det3 e1 e2 e3 * v).
Proof.
  intros Hr [Hp Ht].
  eexists. split; [apply volume_value; assumption|].
  rewrite volume_value by (rewrite Hp, Ht; now apply in_range_map).
  rewrite Hp, Ht. f_equal.
  destruct (m_triangles m) as [|t ts] eqn:E; [rewrite !rsum_nil; field|].
  rewrite bary_affine by (eapply in_range_ne; eassumption).
  rewrite rsum_tri_affine by assumption. field.
Qed.

Lemma in_range_flip ps ts : in_range ps ts -> in_range ps (map flip ts).
Proof.
  intros H i j k Hin. apply in_map_iff in Hin. destruct Hin as ([[a b] c] & E & Hin).
  cbn in E. injection E as <- <- <-. destruct (H a b c Hin) as (? & ? & ?). auto.
Qed.

Lemma volume_flip (m m' : mesh R) :
  in_range (m_points m) (m_triangles m) ->
  made_of m' (m_points m) (map flip (m_triangles m)) ->
  exists v, compute_volume m = Ok v /\ compute_volume m' = Ok (- v).
Proof.
  intros Hr [Hp Ht]. eexists. split; [apply volume_value; assumption|].
  rewrite volume_value by (rewrite Hp, Ht; now apply in_range_flip).
  rewrite Hp, Ht, rsum_map. f_equal.
  rewrite (rsum_ext (fun a => tri_det (m_points m) (barycenter (m_points m)) (flip a))
             (fun a => -1 * tri_det (m_points m) (barycenter (m_points m)) a)).
  - rewrite rsum_scal. field.
  - intros [[i j] k] _. unfold tri_det, flip, det3, minus; cbn. ring.
Qed.

(** Joining. *)
Lemma edges_app a b : edges (a ++ b) = edges a ++ edges b.
Proof. apply flat_map_app. Qed.

Lemma edges_shift n ts :
  edges (map (shift n) ts) = map (fun e => (fst e + Z.of_nat n, snd e + Z.of_nat n)%Z) (edges ts).
Proof.
  induction ts as [|[[i j] k] ts IH]; [reflexivity|].
  unfold edges in *. cbn [map flat_map]. rewrite map_app, IH. reflexivity.
Qed.

Lemma closed_join n ts ts' : closed ts -> closed ts' -> closed (ts ++ map (shift n) ts').
Proof.
  unfold closed. intros H1 H2. rewrite edges_app, map_app. apply Permutation_app; [assumption|].
  rewrite edges_shift, map_map. cbn [fst snd].
  apply (Permutation_map (fun e : Z * Z => (fst e + Z.of_nat n, snd e + Z.of_nat n)%Z)) in H2.
  rewrite map_map in H2. exact H2.
Qed.

Lemma in_range_join ps ts ps' ts' :
  in_range ps ts -> in_range ps' ts' ->
  in_range (ps ++ ps') (ts ++ map (shift (length ps)) ts').
Proof.
  intros H1 H2 i j k Hin. rewrite app_length. apply in_app_iff in Hin. unfold is_index in *.
  destruct Hin as [Hin|Hin].
  - destruct (H1 i j k Hin) as (Ha & Hb & Hc). unfold is_index in *. lia.
  - apply in_map_iff in Hin. destruct Hin as ([[a b] c] & E & Hin). cbn in E.
    injection E as <- <- <-. destruct (H2 a b c Hin) as (Ha & Hb & Hc). unfold is_index in *. lia.
Qed.

Lemma nth_pt_app1 ps ps' i : is_index (length ps) i -> nth_pt (ps ++ ps') i = nth_pt ps i.
Proof. intros [H1 H2]. unfold nth_pt. apply app_nth1. lia. Qed.
Lemma nth_pt_app2 ps ps' i :
  is_index (length ps') i -> nth_pt (ps ++ ps') (i + Z.of_nat (length ps)) = nth_pt ps' i.
Proof. intros [H1 H2]. unfold nth_pt. rewrite app_nth2 by lia. f_equal. lia. Qed.

Lemma enclosed_join ps ts ps' ts' :
  in_range ps ts -> in_range ps' ts' ->
  enclosed (ps ++ ps') (ts ++ map (shift (length ps)) ts') = enclosed ps ts + enclosed ps' ts'.
Proof.
  intros H1 H2. unfold enclosed. rewrite rsum_app, rsum_map.
  rewrite (rsum_ext _ (fun t : mtri => let '(i, j, k) := t in
              det3 (nth_pt ps i) (nth_pt ps j) (nth_pt ps k)) ts).
  - rewrite (rsum_ext (fun a : mtri => let '(i, j, k) := shift (length ps) a in
               det3 (nth_pt (ps ++ ps') i) (nth_pt (ps ++ ps') j) (nth_pt (ps ++ ps') k))
              (fun t : mtri => let '(i, j, k) := t in
               det3 (nth_pt ps' i) (nth_pt ps' j) (nth_pt ps' k)) ts').
    + field.
    + intros [[i j] k] Hin. destruct (H2 i j k Hin) as (Hi & Hj & Hk). cbn [shift].
      rewrite !nth_pt_app2 by assumption. reflexivity.
  - intros [[i j] k] Hin. destruct (H1 i j k Hin) as (Hi & Hj & Hk).
    rewrite !nth_pt_app1 by assumption. reflexivity.
Qed.

Lemma volume_join (m m' mj : mesh R) :
  in_range (m_points m) (m_triangles m) -> closed (m_triangles m) ->
  in_range (m_points m') (m_triangles m') -> closed (m_triangles m') ->
  made_of mj (m_points m ++ m_points m')
             (m_triangles m ++ map (shift (length (m_points m))) (m_triangles m')) ->
  exists v v', compute_volume m = Ok v /\ compute_volume m' = Ok v' /\
               compute_volume mj = Ok (v + v').
Proof.
  intros Hr Hc Hr' Hc' [Hp Ht].
  exists (enclosed (m_points m) (m_triangles m)), (enclosed (m_points m') (m_triangles m')).
  split; [now apply volume_closed|]. split; [now apply volume_closed|].
  rewrite volume_closed.
  - rewrite Hp, Ht, enclosed_join by assumption. reflexivity.
  - rewrite Hp, Ht. now apply in_range_join.
  - rewrite Ht. now apply closed_join.
Qed.

(** ** Inside *)
Lemma tri_det_above ps t p : tri_det ps p t = - above ps t p.
Proof. destruct t as [[i j] k]. unfold tri_det, above, det3, minus; cbn. ring. Qed.

Lemma inside_loop_ok (ps : list pt) p ts :
  in_range ps ts ->
  exists b, inside_loop ps p ts = Ok b /\ (b = true <-> forall t, In t ts -> above ps t p <= 0).
Proof.
  induction ts as [|[[i j] k] ts IH]; intros Hr.
  - exists true. split; [reflexivity|]. split; [intros _ t []|reflexivity].
  - apply in_range_cons in Hr. destruct Hr as [(Hi & Hj & Hk) Hr].
    destruct (IH Hr) as (b & E & Hb). cbn [inside_loop].
    rewrite (corners_ok ps i j k Hi Hj Hk). cbn [obind]. rewrite volume4_det.
    change (det3 (minus (nth_pt ps i) p) (minus (nth_pt ps j) p) (minus (nth_pt ps k) p))
      with (tri_det ps p (i, j, k)).
    rewrite tri_det_above. cbn [nltb nzero R_Num].
    destruct (Rltb_spec (- above ps (i, j, k) p) 0) as [Hl|Hl].
    + exists false. split; [reflexivity|]. split; [discriminate|]. intros H.
      specialize (H _ (or_introl eq_refl)). lra.
    + exists b. split; [exact E|]. rewrite Hb. split.
      * intros H t [<-|Hin]; [lra|now apply H].
      * intros H t Hin. apply H. now right.
Qed.

Lemma inside_value (m : mesh R) p :
  in_range (m_points m) (m_triangles m) -> m_triangles m <> [] ->
  exists b, is_inside m p = Ok b /\
    (b = true <-> forall t, In t (m_triangles m) -> above (m_points m) t p <= 0).
Proof.
  intros Hr Hne. unfold is_inside.
  destruct (m_triangles m) as [|t ts] eqn:E; [easy|].
  pose proof (in_range_ne _ _ _ Hr) as Hp.
  destruct (m_points m) as [|q ps]; [easy|]. now apply inside_loop_ok.
Qed.

Lemma inside_iff (m : mesh R) p :
  in_range (m_points m) (m_triangles m) -> m_triangles m <> [] ->
  (is_inside m p = Ok true <-> forall t, In t (m_triangles m) -> above (m_points m) t p <= 0).
Proof.
  intros Hr Hne. destruct (inside_value m p Hr Hne) as (b & E & Hb). rewrite E, <- Hb.
  split; [intros H; now injection H|intros ->; reflexivity].
Qed.

Lemma above_affine ps t :
  exists n d, forall p, above ps t p = n.(vx) * vx p + n.(vy) * vy p + n.(vz) * vz p + d.
Proof.
  destruct t as [[i j] k]. set (a := nth_pt ps i). set (b := nth_pt ps j). set (c := nth_pt ps k).
  exists (cross (minus b a) (minus c a)),
    (- (vx (cross (minus b a) (minus c a)) * vx a + vy (cross (minus b a) (minus c a)) * vy a
        + vz (cross (minus b a) (minus c a)) * vz a)).
  intros p. unfold above. fold a b c. unfold det3, cross, minus; cbn. ring.
Qed.

Lemma weighted_linear (g1 g2 g3 d : R) (qs : list pt) : forall ws,
  length ws = length qs ->
  g1 * vx (weighted ws qs) + g2 * vy (weighted ws qs) + g3 * vz (weighted ws qs)
  + d * rsum (fun w => w) ws =
  rsum (fun wp => fst wp * (g1 * vx (snd wp) + g2 * vy (snd wp) + g3 * vz (snd wp) + d)) (combine ws qs).
Proof.
  induction qs as [|q qs IH]; intros ws Hl.
  - destruct ws; [|discriminate]. unfold weighted. cbn [combine vx vy vz]. rewrite !rsum_nil. ring.
  - destruct ws as [|w ws]; [discriminate|]. injection Hl as Hl. specialize (IH ws Hl).
    unfold weighted in *. cbn [combine vx vy vz] in *. rewrite !rsum_cons. cbn [fst snd].
    rewrite <- IH. ring.
Qed.

Lemma above_weighted ps t qs ws :
  length ws = length qs -> rsum (fun w => w) ws = 1 ->
  above ps t (weighted ws qs) = rsum (fun wp => fst wp * above ps t (snd wp)) (combine ws qs).
Proof.
  intros Hl H1. destruct (above_affine ps t) as (n & d & Ha).
  rewrite (rsum_ext _ (fun wp => fst wp * (n.(vx) * vx (snd wp) + n.(vy) * vy (snd wp)
             + n.(vz) * vz (snd wp) + d))) by (intros; now rewrite Ha).
  rewrite <- weighted_linear by assumption. rewrite Ha, H1. ring.
Qed.

Lemma inside_hull (m : mesh R) qs p :
  in_range (m_points m) (m_triangles m) -> m_triangles m <> [] ->
  (forall q, In q qs -> is_inside m q = Ok true) -> hull qs p -> is_inside m p = Ok true.
Proof.
  intros Hr Hne Hq (ws & Hl & Hw & H1 & ->).
  apply inside_iff; [assumption..|]. intros t Ht. rewrite above_weighted by assumption.
  assert (H : 0 <= rsum (fun wp => - (fst wp * above (m_points m) t (snd wp))) (combine ws qs)).
  { apply rsum_nonneg. intros [w q] Hin. cbn [fst snd].
    pose proof (Hw w (in_combine_l _ _ _ _ Hin)) as Hw0.
    pose proof (Hq q (in_combine_r _ _ _ _ Hin)) as Hi.
    rewrite inside_iff in Hi by assumption. specialize (Hi t Ht). nra. }
  rewrite (rsum_ext _ (fun wp => -1 * (fst wp * above (m_points m) t (snd wp)))) in H
    by (intros; ring).
  rewrite rsum_scal in H. lra.
Qed.

Lemma inside_volume (m : mesh R) p v :
  in_range (m_points m) (m_triangles m) -> closed (m_triangles m) ->
  is_inside m p = Ok true -> compute_volume m = Ok v -> 0 <= v.
Proof.
  intros Hr Hc Hi Hv.
  destruct (m_triangles m) as [|t0 ts0] eqn:E.
  { unfold is_inside in Hi. rewrite E in Hi. destruct (m_points m); discriminate. }
  rewrite <- E in *. assert (Hne : m_triangles m <> []) by (rewrite E; discriminate).
  rewrite volume_closed in Hv by assumption. injection Hv as <-.
  rewrite inside_iff in Hi by assumption.
  assert (H : enclosed (m_points m) (m_triangles m) = rsum (tri_det (m_points m) p) (m_triangles m) / 6).
  { rewrite tri_det_split, closed_edges by assumption. unfold enclosed. field. }
  rewrite H. assert (0 <= rsum (tri_det (m_points m) p) (m_triangles m)); [|lra].
  apply rsum_nonneg. intros t Ht. rewrite tri_det_above. specialize (Hi t Ht). lra.
Qed.

(** Tetrahedra. *)
Lemma tetra_range (a b c d : pt) : in_range [a; b; c; d] tetra_tris.
Proof.
  intros i j k Hin. unfold is_index; cbn [length].
  repeat (destruct Hin as [Hin|Hin]; [injection Hin as <- <- <-; lia|]). destruct Hin.
Qed.

Lemma tetra_closed : closed tetra_tris.
Proof.
  unfold closed, tetra_tris, edges; cbn [flat_map app map fst snd].
  apply NoDup_Permutation.
  - repeat (apply NoDup_cons; [cbn; intros H; repeat destruct H as [H|H]; try discriminate; auto|]).
    apply NoDup_nil.
  - repeat (apply NoDup_cons; [cbn; intros H; repeat destruct H as [H|H]; try discriminate; auto|]).
    apply NoDup_nil.
  - intros x. cbn. tauto.
Qed.

Lemma tetra_inside (m : mesh R) (a b c d p : pt) :
  made_of m [a; b; c; d] tetra_tris ->
  0 < det3 (minus b a) (minus c a) (minus d a) ->
  (is_inside m p = Ok true <-> hull [a; b; c; d] p).
Proof.
  intros [Hp Ht] HD. set (D := det3 (minus b a) (minus c a) (minus d a)) in *.
  assert (Hr : in_range (m_points m) (m_triangles m)) by (rewrite Hp, Ht; apply tetra_range).
  assert (Hne : m_triangles m <> []) by (rewrite Ht; discriminate).
  split.
  - intros Hi. rewrite inside_iff in Hi by assumption. rewrite Hp, Ht in Hi.
    pose proof (Hi (0, 2, 1)%Z ltac:(cbn; tauto)) as Hd.
    pose proof (Hi (0, 1, 3)%Z ltac:(cbn; tauto)) as Hc.
    pose proof (Hi (0, 3, 2)%Z ltac:(cbn; tauto)) as Hb.
    pose proof (Hi (1, 2, 3)%Z ltac:(cbn; tauto)) as Ha. clear Hi.
    cbv [above nth_pt Z.to_nat Pos.to_nat Pos.iter_op nth Nat.add] in Ha, Hb, Hc, Hd.
    set (A := det3 (minus p b) (minus c b) (minus d b)) in *.
    set (B := det3 (minus p a) (minus d a) (minus c a)) in *.
    set (C := det3 (minus p a) (minus b a) (minus d a)) in *.
    set (E := det3 (minus p a) (minus c a) (minus b a)) in *.
    assert (Hdiv : forall x, x <= 0 -> 0 <= - x / D).
    { intros x Hx. apply Rmult_le_pos; [lra|]. apply Rlt_le, Rinv_0_lt_compat. lra. }
    assert (Hs : - A + - B + - C + - E = D).
    { unfold A, B, C, D, E, det3, minus; cbn [vx vy vz]. ring. }
    assert (Hx : - A * vx a + - B * vx b + - C * vx c + - E * vx d = D * vx p).
    { unfold A, B, C, D, E, det3, minus; cbn [vx vy vz]. ring. }
    assert (Hy : - A * vy a + - B * vy b + - C * vy c + - E * vy d = D * vy p).
    { unfold A, B, C, D, E, det3, minus; cbn [vx vy vz]. ring. }
    assert (Hz : - A * vz a + - B * vz b + - C * vz c + - E * vz d = D * vz p).
    { unfold A, B, C, D, E, det3, minus; cbn [vx vy vz]. ring. }
    clearbody A B C D E.
    exists [- A / D; - B / D; - C / D; - E / D]. split; [reflexivity|]. split.
    { intros w [<-|[<-|[<-|[<-|[]]]]]; now apply Hdiv. }
    split.
    { rewrite !rsum_cons, rsum_nil.
      replace (- A / D + (- B / D + (- C / D + (- E / D + 0))))
        with ((- A + - B + - C + - E) / D) by (field; lra).
      rewrite Hs. field. lra. }
    unfold weighted. cbn [combine]. rewrite !rsum_cons, !rsum_nil. cbn [fst snd].
    destruct p as [x y z]; cbn [vx vy vz] in *. f_equal.
    + replace x with (D * x / D) by (field; lra). rewrite <- Hx. field. lra.
    + replace y with (D * y / D) by (field; lra). rewrite <- Hy. field. lra.
    + replace z with (D * z / D) by (field; lra). rewrite <- Hz. field. lra.
  - apply inside_hull; [assumption..|]. intros q Hq. apply inside_iff; [assumption..|].
    rewrite Hp, Ht. intros t Hin.
    assert (HD' := HD). unfold D, det3, minus in HD'; cbn [vx vy vz] in HD'.
    assert (K : forall x y : R, 0 < x -> (y = 0 \/ y = - x) -> y <= 0) by (intros; lra).
    destruct Hin as [<-|[<-|[<-|[<-|[]]]]];
      cbv [above nth_pt Z.to_nat Pos.to_nat Pos.iter_op nth Nat.add];
      destruct Hq as [<-|[<-|[<-|[<-|[]]]]]; apply (K D _ HD);
      unfold D, det3, minus; cbn [vx vy vz]; (left; ring) || (right; ring).
Qed.

Lemma tetra_volume (m : mesh R) (a b c d : pt) :
  made_of m [a; b; c; d] tetra_tris ->
  compute_volume m = Ok (det3 (minus b a) (minus c a) (minus d a) / 6).
Proof.
  intros [Hp Ht]. rewrite volume_closed.
  - rewrite Hp, Ht. unfold enclosed, tetra_tris. rewrite !rsum_cons, rsum_nil.
    cbv [nth_pt Z.to_nat Pos.to_nat Pos.iter_op nth Nat.add]. f_equal.
    unfold det3, minus; cbn [vx vy vz]. field.
  - rewrite Hp, Ht. apply tetra_range.
  - rewrite Ht. apply tetra_closed.
Qed.

(** ** Clipping *)
Lemma clip_ok pl (l : list pt) : forall pos neg,
  fold_left (clip_step pl) l (pos, neg) =
  (pos ++ filter (fun p => Rleb 0 (side pl p)) l, neg ++ filter (fun p => Rleb (side pl p) 0) l).
Proof.
  induction l as [|p l IH]; intros pos neg.
  - cbn. now rewrite !app_nil_r.
  - cbn [fold_left filter]. unfold clip_step at 2.
    change (plane_dist pl p) with (side pl p). cbn [nltb nzero R_Num].
    destruct (Rltb_spec 0 (side pl p)) as [H|H].
    + rewrite IH. replace (Rleb 0 (side pl p)) with true by (symmetry; rcmp; lra).
      replace (Rleb (side pl p) 0) with false by (symmetry; rcmp; lra).
      now rewrite <- app_assoc.
    + destruct (Rltb_spec (side pl p) 0) as [H'|H'].
      * rewrite IH. replace (Rleb 0 (side pl p)) with false by (symmetry; rcmp; lra).
        replace (Rleb (side pl p) 0) with true by (symmetry; rcmp; lra).
        now rewrite <- app_assoc.
      * rewrite IH. replace (Rleb 0 (side pl p)) with true by (symmetry; rcmp; lra).
        replace (Rleb (side pl p) 0) with true by (symmetry; rcmp; lra).
        now rewrite <- !app_assoc.
Qed.

(** ** Area and centre *)
Lemma norm_sq (a : pt) : norm a * norm a = vx a * vx a + vy a * vy a + vz a * vz a.
Proof. unfold norm. apply sqrt_sqrt. nra. Qed.
Lemma norm_pos (a : pt) : 0 <= norm a.
Proof. apply sqrt_pos. Qed.

Lemma triangle_area_ok (a b c : pt) : triangle_area sqrt a b c = area a b c.
Proof.
  unfold triangle_area. cbv zeta.
  change (enorm0 sqrt a b) with (norm (minus b a)).
  cbn [nadd nsub nmul ndiv neqb nzero ndec R_Num].
  set (u := minus b a). set (w := minus c a).
  change (vx b - vx a) with (vx u). change (vy b - vy a) with (vy u). change (vz b - vz a) with (vz u).
  change (vx c - vx a) with (vx w). change (vy c - vy a) with (vy w). change (vz c - vz a) with (vz w).
  unfold area. fold u w. clearbody u w.
  assert (Hd : Rdec 5 (-1) = / 2) by (unfold Rdec; change (Pos.to_nat 1) with 1%nat; rewrite pow_1; lra). rewrite Hd. clear Hd.
  pose proof (norm_sq u) as Hu. pose proof (norm_pos u) as Hu0.
  destruct (Reqb_spec (norm u) 0) as [E|E].
  - rewrite E. rewrite E in Hu. unfold norm, cross; cbn [vx vy vz].
    assert (Hx : vx u = 0) by nra. assert (Hy : vy u = 0) by nra. assert (Hz : vz u = 0) by nra.
    rewrite Hx, Hy, Hz.
    replace ((0 * vz w - 0 * vy w) * (0 * vz w - 0 * vy w)
      + (0 * vx w - 0 * vz w) * (0 * vx w - 0 * vz w)
      + (0 * vy w - 0 * vx w) * (0 * vy w - 0 * vx w)) with 0 by ring.
    rewrite sqrt_0. field.
  - set (k := (vx u * vx w + vy u * vy w + vz u * vz w) / (norm u * norm u)).
    set (h := (vx w - k * vx u) * (vx w - k * vx u) + (vy w - k * vy u) * (vy w - k * vy u)
              + (vz w - k * vz u) * (vz w - k * vz u)).
    assert (Hh : 0 <= h).
    { unfold h. assert (K : forall x y z : R, 0 <= x * x + y * y + z * z) by (intros; nra). apply K. }
    assert (Hs : norm u * norm u <> 0) by (intros C; apply Rmult_integral in C; tauto).
    assert (Hc : norm (cross u w) = norm u * sqrt h).
    { unfold norm at 1. rewrite <- (sqrt_square (norm u)) at 1 by assumption.
      rewrite <- sqrt_mult by nra. f_equal.
      assert (Hk : k * (norm u * norm u) = vx u * vx w + vy u * vy w + vz u * vz w)
        by (unfold k; field; assumption).
      assert (Hh2 : norm u * norm u * h =
        norm u * norm u * (vx w * vx w + vy w * vy w + vz w * vz w)
        - 2 * (k * (norm u * norm u)) * (vx u * vx w + vy u * vy w + vz u * vz w)
        + (k * (norm u * norm u)) * (k * (vx u * vx u + vy u * vy u + vz u * vz u)))
        by (unfold h; ring).
      rewrite Hh2. rewrite <- Hu, Hk. rewrite Hu. unfold cross; cbn [vx vy vz]. ring. }
    rewrite Hc. field.
Qed.

Lemma centroid_loop_ok (ps : list pt) ts : forall num den,
  in_range ps ts ->
  centroid_loop sqrt ps ts num den =
  Ok (MV (vx num + rsum (fun t => tri_area ps t * tri_mean vx ps t) ts)
         (vy num + rsum (fun t => tri_area ps t * tri_mean vy ps t) ts)
         (vz num + rsum (fun t => tri_area ps t * tri_mean vz ps t) ts),
      den + surface ps ts).
Proof.
  induction ts as [|[[i j] k] ts IH]; intros num den Hr.
  - cbn. unfold surface. rewrite !rsum_nil, !Rplus_0_r. destruct num; reflexivity.
  - apply in_range_cons in Hr. destruct Hr as [(Hi & Hj & Hk) Hr].
    cbn [centroid_loop]. rewrite (corners_ok ps i j k Hi Hj Hk). cbn [obind]. cbv zeta.
    rewrite IH by assumption. unfold surface. rewrite !rsum_cons, triangle_area_ok.
    cbn [vx vy vz nadd nmul R_Num tri_area tri_mean].
    unfold third; cbn [nadd ndiv nofZ R_Num]. f_equal. f_equal; [f_equal; ring|ring].
Qed.

Lemma centroid_ok (ps : list pt) ts :
  in_range ps ts -> surface ps ts <> 0 ->
  compute_centroid sqrt ps ts =
  Ok (MV (surface_mean vx ps ts) (surface_mean vy ps ts) (surface_mean vz ps ts)).
Proof.
  intros Hr Hs. unfold compute_centroid. rewrite centroid_loop_ok by assumption. cbn [obind].
  cbn [vx vy vz nzero none_ nmul ndiv R_Num]. unfold surface_mean. rewrite !Rplus_0_l.
  f_equal. f_equal; field; assumption.
Qed.

Lemma tri_area_pos ps t : 0 <= tri_area ps t.
Proof. destruct t as [[i j] k]. unfold tri_area, area. pose proof (norm_pos (cross (minus (nth_pt ps j) (nth_pt ps i)) (minus (nth_pt ps k) (nth_pt ps i)))). lra. Qed.

Lemma surface_pos ps ts : 0 <= surface ps ts.
Proof. apply rsum_nonneg. intros t _. apply tri_area_pos. Qed.

Lemma nth_pt_in ps i : is_index (length ps) i -> In (nth_pt ps i) ps.
Proof. intros [H1 H2]. apply nth_In. lia. Qed.

(** A function bounded on the points is bounded in the mean over the surface. *)
Lemma surface_mean_le f ps ts B :
  in_range ps ts -> 0 < surface ps ts -> (forall p, In p ps -> f p <= B) -> surface_mean f ps ts <= B.
Proof.
  intros Hr Hs Hf. unfold surface_mean.
  apply (Rmult_le_reg_r (surface ps ts)); [assumption|].
  replace (rsum (fun t => tri_area ps t * tri_mean f ps t) ts / surface ps ts * surface ps ts)
    with (rsum (fun t => tri_area ps t * tri_mean f ps t) ts) by (field; lra).
  unfold surface. rewrite Rmult_comm, <- rsum_scal_r. apply rsum_le.
  intros [[i j] k] Hin. destruct (Hr i j k Hin) as (Hi & Hj & Hk).
  apply Rmult_le_compat_l; [apply tri_area_pos|]. cbn [tri_mean].
  pose proof (Hf _ (nth_pt_in ps i Hi)). pose proof (Hf _ (nth_pt_in ps j Hj)).
  pose proof (Hf _ (nth_pt_in ps k Hk)). lra.
Qed.

Lemma surface_mean_lin g1 g2 g3 d ps ts :
  0 < surface ps ts ->
  g1 * surface_mean vx ps ts + g2 * surface_mean vy ps ts + g3 * surface_mean vz ps ts + d =
  surface_mean (fun p => g1 * vx p + g2 * vy p + g3 * vz p + d) ps ts.
Proof.
  intros Hs. unfold surface_mean.
  assert (H : rsum (fun t => tri_area ps t * tri_mean (fun p => g1 * vx p + g2 * vy p + g3 * vz p + d) ps t) ts
    = g1 * rsum (fun t => tri_area ps t * tri_mean vx ps t) ts
      + g2 * rsum (fun t => tri_area ps t * tri_mean vy ps t) ts
      + g3 * rsum (fun t => tri_area ps t * tri_mean vz ps t) ts + d * surface ps ts).
  { clear Hs. unfold surface. induction ts as [|[[i j] k] ts IH]; [rewrite !rsum_nil; ring|].
    rewrite !rsum_cons, IH. cbn [tri_area tri_mean]. field. }
  rewrite H. field. lra.
Qed.

Lemma centre_inside (m : mesh R) c :
  in_range (m_points m) (m_triangles m) -> 0 < surface (m_points m) (m_triangles m) ->
  (forall q, In q (m_points m) -> is_inside m q = Ok true) ->
  compute_centroid sqrt (m_points m) (m_triangles m) = Ok c -> is_inside m c = Ok true.
Proof.
  intros Hr Hs Hq Hc. rewrite centroid_ok in Hc by (assumption || lra). injection Hc as <-.
  assert (Hne : m_triangles m <> []).
  { intros E. rewrite E in Hs. unfold surface in Hs. rewrite rsum_nil in Hs. lra. }
  apply inside_iff; [assumption..|]. intros t Ht.
  destruct (above_affine (m_points m) t) as (n & d & Ha). rewrite Ha. cbn [vx vy vz].
  rewrite surface_mean_lin by assumption. apply surface_mean_le; [assumption..|].
  intros q Hin. specialize (Hq q Hin). rewrite inside_iff in Hq by assumption.
  rewrite <- Ha. now apply Hq.
Qed.

(** ** Boxes *)
Lemma lower_le a b : lower a b <= a /\ lower a b <= b /\ (lower a b = a \/ lower a b = b).
Proof. unfold lower; cbn [nltb R_Num]. destruct (Rltb_spec b a); lra. Qed.
Lemma upper_le a b : a <= upper a b /\ b <= upper a b /\ (upper a b = a \/ upper a b = b).
Proof. unfold upper; cbn [nltb R_Num]. destruct (Rltb_spec a b); lra. Qed.

Lemma tight_lower_upper f (ps : list pt) lo hi p :
  tight f ps lo hi -> tight f (ps ++ [p]) (lower lo (f p)) (upper hi (f p)).
Proof.
  intros (Hb & (pl & Hl & El) & (ph & Hh & Eh)).
  destruct (lower_le lo (f p)) as (L1 & L2 & L3). destruct (upper_le hi (f p)) as (U1 & U2 & U3).
  split; [|split].
  - intros q Hq. apply in_app_iff in Hq. destruct Hq as [Hq|[<-|[]]]; [|lra].
    specialize (Hb q Hq). lra.
  - destruct L3 as [->| ->]; [exists pl|exists p]; (split; [apply in_app_iff; cbn; tauto|auto]).
  - destruct U3 as [->| ->]; [exists ph|exists p]; (split; [apply in_app_iff; cbn; tauto|auto]).
Qed.

Lemma tight_range f (ps : list pt) lo hi p lo' hi' :
  tight f ps lo hi -> range_step (lo, hi) (f p) = (lo', hi') -> tight f (ps ++ [p]) lo' hi'.
Proof.
  intros Ht E.
  assert (Hlh : lo <= hi) by (destruct Ht as (Hb & (q & Hq & <-) & _); apply Hb; assumption).
  assert (E2 : (lo', hi') = (lower lo (f p), upper hi (f p))).
  { rewrite <- E. unfold range_step, lower, upper; cbn [nltb R_Num].
    destruct (Rltb_spec (f p) lo); destruct (Rltb_spec hi (f p)); try reflexivity; lra. }
  injection E2 as -> ->. now apply tight_lower_upper.
Qed.

Lemma tight_one f (p : pt) : tight f [p] (f p) (f p).
Proof.
  split; [intros q [<-|[]]; lra|]. split; (exists p; split; [now left|reflexivity]).
Qed.

Lemma box_ok (r : list pt) : forall ps lo hi,
  tight_box ps lo hi ->
  let '(lo', hi') := fold_left box_step r (lo, hi) in tight_box (ps ++ r) lo' hi'.
Proof.
  induction r as [|p r IH]; intros ps lo hi Ht.
  - cbn. now rewrite app_nil_r.
  - cbn [fold_left]. replace (ps ++ p :: r) with ((ps ++ [p]) ++ r) by (now rewrite <- app_assoc).
    unfold box_step at 2. apply IH. destruct Ht as (Hx & Hy & Hz).
    split; [|split]; cbn [vx vy vz].
    + exact (tight_lower_upper vx ps _ _ p Hx).
    + exact (tight_lower_upper vy ps _ _ p Hy).
    + exact (tight_lower_upper vz ps _ _ p Hz).
Qed.

Lemma diag_box_ok (r : list pt) : forall ps lo hi,
  tight_box ps lo hi ->
  let '(lo', hi') := fold_left diag_step r (lo, hi) in tight_box (ps ++ r) lo' hi'.
Proof.
  induction r as [|p r IH]; intros ps lo hi Ht.
  - cbn. now rewrite app_nil_r.
  - cbn [fold_left]. replace (ps ++ p :: r) with ((ps ++ [p]) ++ r) by (now rewrite <- app_assoc).
    unfold diag_step at 2. destruct Ht as (Hx & Hy & Hz).
    destruct (range_step (vx lo, vx hi) (vx p)) as [lx hx] eqn:Ex.
    destruct (range_step (vy lo, vy hi) (vy p)) as [ly hy] eqn:Ey.
    destruct (range_step (vz lo, vz hi) (vz p)) as [lz hz] eqn:Ez.
    apply IH. split; [|split]; cbn [vx vy vz]; eapply tight_range; eassumption.
Qed.

Lemma tight_box_one (p : pt) : tight_box [p] p p.
Proof. split; [|split]; apply tight_one. Qed.

Lemma tight_box_dist ps lo hi p q :
  tight_box ps lo hi -> In p ps -> In q ps -> dist p q <= norm (minus hi lo).
Proof.
  intros ((Hx & _) & (Hy & _) & (Hz & _)) Hp Hq. unfold dist, norm. apply sqrt_le_1_alt.
  pose proof (Hx p Hp). pose proof (Hx q Hq). pose proof (Hy p Hp). pose proof (Hy q Hq).
  pose proof (Hz p Hp). pose proof (Hz q Hq). unfold minus; cbn [vx vy vz].
  assert (K : forall a b l h, l <= a <= h -> l <= b <= h -> (a - b) * (a - b) <= (h - l) * (h - l))
    by (intros; nra).
  pose proof (K (vx p) (vx q) (vx lo) (vx hi)). pose proof (K (vy p) (vy q) (vy lo) (vy hi)).
  pose proof (K (vz p) (vz q) (vz lo) (vz hi)). intuition lra.
Qed.
