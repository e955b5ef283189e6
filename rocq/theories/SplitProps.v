(** * C156: the convex hull divides its points into distinct ones in order *)
From Coq Require Import List Arith Bool ZArith Lia Sorted.
From Verif Require Import Common SortModel SortSpec SortProps FreeModel FreeProofs SplitModel SplitSpec SplitProofs.
Import ListNotations.
Local Open Scope nat_scope.

(** For all points sorted as [compute] sorts them (C145), with differences that fit (C149), the division
    ends; its vertices, in order, are strictly increasing, so that of two hulls merged every point of the
    first comes before every point of the second and no point is there twice; every point given is one of
    them; and every hull of one or two points has its extreme vertices. *)
Theorem C156_parts pts fuel : sorted point_cmp pts -> small pts -> length pts < fuel ->
  exists t, compute_parts fuel pts 0 (length pts) = Ok t /\
    StronglySorted (idx_before pts) (leaves t) /\
    (forall i, In i (leaves t) -> i < length pts) /\
    (forall p, In p pts -> exists i q, In i (leaves t) /\ nth_error pts i = Some q /\ coords q = coords p) /\
    all_extreme pts t.
Proof.
  intros SO SM hf. destruct (parts_ok pts SO SM fuel 0 (length pts)) as (t & e & g1 & g2 & g3 & g4); [lia|lia|lia|].
  exists t. split; [exact e|]. split; [exact g2|]. split; [intros i hi; apply g1 in hi; lia|]. split; [|exact g4].
  intros p hp. apply In_nth_error in hp. destruct hp as (k & hk). apply (g3 k p); [|exact hk].
  split; [lia|]. apply nth_error_Some. congruence.
Qed.
Print Assumptions C156_parts.

(** With the sort before it: for all points with small coordinates, in any order, the coordinates of the
    vertices are those of the points, each once. *)
Corollary C156_distinct ps fuel : small ps -> length ps < fuel ->
  exists pts t cs, quick_sort point_cmp fuel ps = Ok pts /\ compute_parts fuel pts 0 (length pts) = Ok t /\
    Forall2 (fun i c => exists p, nth_error pts i = Some p /\ coords p = c) (leaves t) cs /\
    NoDup cs /\ forall c, In c cs <-> In c (map coords ps).
Proof.
  intros SM hf. destruct (C145_points ps fuel hf) as (pts & e & P & O).
  assert (SO : sorted point_cmp pts).
  { intros l x m y r hl. specialize (O l x m y r hl). destruct (point_cmp y x) eqn:ec; [|reflexivity]. apply cmp_before in ec. unfold before in ec. lia. }
  assert (SM' : small pts) by (intros p hp; apply SM; now apply (Permutation.Permutation_in p (Permutation.Permutation_sym P))).
  destruct (C156_parts pts fuel SO SM') as (t & e2 & g1 & g2 & g3 & _); [now rewrite <- (Permutation.Permutation_length P)|].
  set (at0 := fun i => match nth_error pts i with Some p => coords p | None => (0, 0, 0)%Z end).
  exists pts, t, (map at0 (leaves t)). split; [exact e|]. split; [exact e2|]. split; [|split].
  - clear g1 g3. induction (leaves t) as [|i l ih]; constructor; [|apply ih; intros j hj; apply g2; now right].
    specialize (g2 i (or_introl eq_refl)). unfold at0. destruct (nth_error pts i) as [p|] eqn:ei; [eauto|]. apply nth_error_None in ei. lia.
  - clear g2 g3. induction g1 as [|i l g ih h]; cbn [map]; constructor; [|exact ih]. intros hi. apply in_map_iff in hi. destruct hi as (j & q & hj).
    rewrite Forall_forall in h. destruct (h j hj) as (a & b & ha & hb & hab). unfold at0 in q. rewrite ha, hb in q. unfold before in hab.
    injection q as q1 q2 q3. lia.
  - intros c. rewrite !in_map_iff. split.
    + intros (i & <- & hi). specialize (g2 i hi). unfold at0. destruct (nth_error pts i) as [p|] eqn:ei; [|apply nth_error_None in ei; lia].
      exists p. split; [reflexivity|]. apply (Permutation.Permutation_in p (Permutation.Permutation_sym P)). exact (nth_error_In _ _ ei).
    + intros (p & <- & hp). destruct (g3 p (Permutation.Permutation_in p P hp)) as (i & q & hi & hq & hc). exists i. split; [|exact hi].
      unfold at0. now rewrite hq.
Qed.
Print Assumptions C156_distinct.

(** Merging two hulls of which all points of the first come before those of the second leaves the extreme
    vertices of both. *)
Theorem C156_extremes pts vs ws a b : extreme pts vs a -> extreme pts ws b -> (forall i j, In i vs -> In j ws -> idx_before pts i j) ->
  exists x, merge_extremes pts a b = Ok x /\ extreme pts (vs ++ ws) x.
Proof.
  intros (a1 & a2 & a3 & a4 & p0 & q0 & c0 & d0 & e1 & e2 & e3 & e4 & A) (b1 & b2 & b3 & b4 & p1 & q1 & c1 & d1 & f1 & f2 & f3 & f4 & B) O.
  unfold merge_extremes, at_pt. rewrite e1, e2, f1, f2. cbn [obind]. eexists. split; [reflexivity|].
  assert (X : forall i j p q, In i vs -> In j ws -> nth_error pts i = Some p -> nth_error pts j = Some q -> before p q).
  { intros i j p q hi hj hp hq. destruct (O i j hi hj) as (p' & q' & k1 & k2 & k3). congruence. }
  pose proof (X _ _ _ _ a1 b1 e1 f1) as X1. pose proof (X _ _ _ _ a2 b2 e2 f2) as X2. unfold before in X1, X2.
  unfold extreme. cbn [min_xy max_xy min_yx max_yx].
  split; [apply in_or_app; destruct (px p1 <? px p0)%Z; auto|]. split; [apply in_or_app; destruct (px q0 <=? px q1)%Z; auto|].
  split; [apply in_or_app; auto|]. split; [apply in_or_app; auto|].
  exists (if (px p1 <? px p0)%Z then p1 else p0), (if (px q0 <=? px q1)%Z then q1 else q0), c0, d1.
  split; [destruct (px p1 <? px p0)%Z; assumption|]. split; [destruct (px q0 <=? px q1)%Z; assumption|]. split; [exact e3|]. split; [exact f4|].
  intros i p hi hp. apply in_app_iff in hi. destruct (Z.ltb_spec (px p1) (px p0)) as [g|g], (Z.leb_spec (px q0) (px q1)) as [k|k];
    (destruct hi as [hi|hi];
     [pose proof (A i p hi hp) as A1; pose proof (X _ _ _ _ hi b1 hp f1) as Y1; pose proof (X _ _ _ _ hi b2 hp f2) as Y2; pose proof (X _ _ _ _ hi b4 hp f4) as Y3
     |pose proof (B i p hi hp) as A1; pose proof (X _ _ _ _ a1 hi e1 hp) as Y1; pose proof (X _ _ _ _ a2 hi e2 hp) as Y2; pose proof (X _ _ _ _ a3 hi e3 hp) as Y3]);
    clear - A1 Y1 Y2 Y3 g k X1 X2; unfold le_xy, le_yx, before in *; lia.
Qed.
Print Assumptions C156_extremes.

(** The vertices lie one after the other in memory, so that [v + 1] is the next one. *)
Theorem C156_vertices count : original_vertices count = Ok (map (fun i => (0, i)) (seq 0 count)).
Proof.
  assert (init : forall n l a size i o, init_loop l a size i n o =
    if (fst o =? a) && (i <=? snd o) && (snd o <? i + n) then Some (if snd o + 1 <? size then Some (a, snd o + 1) else None) else l o).
  { induction n as [|n ih]; intros l a size i (b, j); cbn [init_loop fst snd].
    - destruct (Nat.leb_spec i j), (Nat.ltb_spec j (i + 0)); try lia; now rewrite !andb_false_r.
    - rewrite ih. cbn [fst snd]. unfold link, oeqb. cbn [fst snd].
      destruct (Nat.eqb_spec b a) as [->|]; cbn [andb]; [|reflexivity].
      destruct (Nat.leb_spec (S i) j), (Nat.leb_spec i j), (Nat.ltb_spec j (S i + n)), (Nat.ltb_spec j (i + S n)), (Nat.eqb_spec j i); cbn [andb]; try lia; subst; reflexivity. }
  assert (step : forall n k p, k + n = count -> parrays p = [PA count None] -> free_objects p = (if k <? count then Some (0, k) else None) ->
    (forall j, k <= j < count -> nexts p (0, j) = Some (if j + 1 <? count then Some (0, j + 1) else None)) ->
    exists p', new_vertices p n = Ok (p', map (fun i => (0, i)) (seq k n))).
  { induction n as [|n ih]; intros k p hk h1 h2 h3; [eexists; reflexivity|]. cbn [new_vertices]. unfold new_object. rewrite h2.
    destruct (Nat.ltb_spec k count); [|lia]. unfold take. rewrite h1. cbn [fst snd nth_error psize]. destruct (Nat.ltb_spec k count); [|lia].
    rewrite (h3 k) by lia. cbn [obind]. destruct (ih (k + 1) (Pool [PA count None] (arrays p) (next_array p) (if k + 1 <? count then Some (0, k + 1) else None) (array_size p) (FreeModel.link (nexts p) (0, k) None))) as (p' & e).
    - lia.
    - reflexivity.
    - reflexivity.
    - intros j hj. cbn [nexts]. unfold FreeModel.link, oeqb. cbn [fst snd]. destruct (Nat.eqb_spec j k); [lia|]. rewrite andb_false_r. apply h3. lia.
    - exists p'. cbn [seq map]. 
      match goal with |- obind ?X _ = _ => replace X with (Ok (p', map (fun i : nat => (0, i)) (seq (S k) n))) by (symmetry; rewrite <- (Nat.add_1_r k); exact e) end. reflexivity. }
  unfold original_vertices. destruct count as [|c]; [reflexivity|]. cbn [new_vertices reset set_array_size pool_new new_object free_objects next_array parrays array_size nexts length app arrays obind].
  unfold new_object. cbn [free_objects next_array parrays array_size nexts length app arrays obind].
  unfold init_array. cbn [parrays nth_error psize obind]. unfold take. cbn [parrays nth_error psize obind fst snd nexts free_objects arrays next_array array_size].
  destruct (Nat.ltb_spec 0 (S c)); [|lia]. rewrite init. cbn [fst snd]. rewrite Nat.eqb_refl. cbn [andb Nat.leb plus].
  destruct (Nat.ltb_spec 0 (S c)); [|lia]. cbn [obind].
  destruct (step c 1 (Pool [PA (S c) None] (Some 0) None (if 1 <? S c then Some (0, 1) else None) (S c) (FreeModel.link (init_loop (fun _ => None) 0 (S c) 0 (S c)) (0, 0) None))) as (p' & e).
  - reflexivity.
  - reflexivity.
  - reflexivity.
  - intros j hj. cbn [nexts]. unfold FreeModel.link, oeqb. cbn [fst snd]. destruct (Nat.eqb_spec j 0); [lia|]. rewrite andb_false_r, init. cbn [fst snd].
    rewrite Nat.eqb_refl. destruct (Nat.leb_spec 0 j); [|lia]. destruct (Nat.ltb_spec j (0 + S c)); [|lia]. reflexivity.
  - match goal with |- obind (obind ?X _) _ = _ => replace X with (Ok (p', map (fun i : nat => (0, i)) (seq 1 c))) by (symmetry; exact e) end. reflexivity.
Qed.
Print Assumptions C156_vertices.

(** Six points, two of them twice, in the order of the sort. *)
Definition C156_points : list point32 := [P32 0 0 0 1; P32 0 0 0 4; P32 5 0 0 3; P32 5 0 0 2; P32 5 0 7 0; P32 (-3) 2 1 5].
Example C156_points_sorted : quick_sort point_cmp 9 [P32 5 0 7 0; P32 0 0 0 1; P32 5 0 0 2; P32 5 0 0 3; P32 0 0 0 4; P32 (-3) 2 1 5] = Ok C156_points /\
  small C156_points /\ compute_parts 9 C156_points 0 6 = Ok (Merge (Merge (one_hull 0) (one_hull 2)) (Two 4 5 (Ext 5 4 4 5))).
Proof.
  split; [vm_compute; reflexivity|]. split; [|vm_compute; reflexivity].
  intros p hp. repeat (destruct hp as [<-|hp]; [cbn; lia|]). destruct hp.
Qed.
Example C156_merged : merge_extremes C156_points (Ext 0 2 0 2) (Ext 5 4 4 5) = Ok (Ext 5 4 0 5).
Proof. vm_compute. reflexivity. Qed.
