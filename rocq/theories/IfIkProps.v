(** * The inverse kinematics constraint of trajopt_ifopt (C106) *)
From Coq Require Import ZArith List Bool Reals Lra Lia Arith.
From Verif Require Import Num NumFacts Common IfoptModel CollisionModel ModelingModel KinModel KinProofs IfCartModel.
Import ListNotations.
Local Open Scope R_scope.

(** squared and plain distance of two joint vectors, componentwise difference *)
Definition sqdist (a b : list R) : R := fold_right Rplus 0 (map (fun p => (fst p - snd p) * (fst p - snd p)) (combine a b)).
Definition jdist (a b : list R) : R := sqrt (sqdist a b).
Definition diff (a b : list R) : list R := map (fun p => fst p - snd p) (combine a b).

Lemma sqdist_pos a b : 0 <= sqdist a b.
Proof. unfold sqdist. induction (combine a b) as [|p l IH]; cbn; [lra|].
  pose proof (Rle_0_sqr (fst p - snd p)) as Q. unfold Rsqr in Q. lra. Qed.
Lemma norm_diff a b : vnorm sqrt (vminus a b) = jdist a b.
Proof.
  unfold vnorm, vminus, jdist, sqdist. rewrite map_map. f_equal. rewrite vsum_R. unfold Rsum. reflexivity.
Qed.
Lemma diff_eq a b : vminus a b = diff a b.
Proof. reflexivity. Qed.

(** the loop: what it holds is the difference to some solution unless nothing was below the start value *)
Lemma ik_loop q sols : forall st, let r := fold_left (ik_step sqrt q) sols st in
  (r = st /\ (forall s, In s sols -> snd st <= jdist s q)) \/
  (exists s, In s sols /\ r = (diff s q, jdist s q) /\ jdist s q < snd st /\ (forall s', In s' sols -> jdist s q <= jdist s' q)).
Proof.
  induction sols as [|s sols IH]; intros st r; cbn in r.
  - left. split; [reflexivity|]. intros s [].
  - subst r. assert (Est : ik_step sqrt q st s = if Rltb (jdist s q) (snd st) then (vminus s q, jdist s q) else st)
      by (unfold ik_step; rewrite norm_diff; reflexivity).
    rewrite Est. clear Est. destruct (Rltb_spec (jdist s q) (snd st)) as [H | H].
    + destruct (IH (vminus s q, jdist s q)) as [[E Hs] | (s1 & H1 & E & H2 & H3)].
      * right. exists s. split; [left; auto|]. split; [exact E|]. split; [exact H|]. intros s' [<- | Hs']; [lra|]. apply (Hs s' Hs').
      * right. exists s1. cbn in H2. split; [right; auto|]. split; [exact E|]. split; [lra|]. intros s' [<- | Hs']; [lra|auto].
    + destruct (IH st) as [[E Hs] | (s1 & H1 & E & H2 & H3)].
      * left. split; [exact E|]. intros s' [<- | Hs']; auto.
      * right. exists s1. split; [right; auto|]. split; [exact E|]. split; [exact H2|]. intros s' [<- | Hs']; [lra|auto].
Qed.

Lemma lengths_ok (q : list R) (sols : list (list R)) : (forall s, In s sols -> length s = length q) -> forallb (fun s => (length s =? length q)%nat) sols = true.
Proof. intros H. apply forallb_forall. intros s Hs. apply Nat.eqb_eq. auto. Qed.

(** C106: the value is the difference to one of the solutions, and no solution is closer *)
Theorem C106_nearest : forall {Tf} ndebug (ik : Tf -> list R -> list (list R)) tcp target seed largest q,
  ik target seed <> [] -> (forall s, In s (ik target seed) -> length s = length q) ->
  (exists s, In s (ik target seed) /\ jdist s q < largest) ->
  exists s, ik_values sqrt largest ndebug ik tcp target seed q = Val (diff s q) /\ In s (ik target seed) /\
    forall s', In s' (ik target seed) -> jdist s q <= jdist s' q.
Proof.
  intros Tf ndebug ik tcp target seed largest q Hne Hlen (s0 & Hs0 & Hl). unfold ik_values.
  assert ((negb ndebug && match ik target seed with [] => true | _ => false end)%bool = false) as ->.
  { destruct (ik target seed); [congruence|]. apply andb_false_r. }
  rewrite lengths_ok by auto. cbn [negb].
  destruct (ik_loop q (ik target seed) (repeat nzero (length q), largest)) as [[_ K] | (s & H1 & E & _ & H3)].
  - specialize (K s0 Hs0). cbn in K. lra.
  - exists s. rewrite E. cbn. auto.
Qed.
Print Assumptions C106_nearest.

Lemma sqdist_zero a : forall b, length a = length b -> sqdist a b = 0 -> a = b.
Proof.
  induction a as [|x a IH]; intros [|y b] H E; try discriminate; [reflexivity|]. unfold sqdist in E. cbn in E.
  pose proof (sqdist_pos a b) as P. unfold sqdist in P. pose proof (Rle_0_sqr (x - y)) as Q. unfold Rsqr in Q.
  assert (Z : (x - y) * (x - y) = 0) by lra. assert (Z2 : sqdist a b = 0) by (unfold sqdist; lra).
  f_equal; [apply Rmult_integral in Z; lra|]. apply IH; auto.
Qed.
Lemma diff_zero a : forall b, length a = length b -> Forall (fun x => x = 0) (diff a b) -> a = b.
Proof.
  induction a as [|x a IH]; intros [|y b] H F; try discriminate; [reflexivity|]. unfold diff in F. cbn in F. inversion F as [|? ? F1 F2]; subst.
  f_equal; [lra|]. apply IH; auto.
Qed.
Lemma diff_self a : Forall (fun x => x = 0) (diff a a) /\ sqdist a a = 0.
Proof. induction a as [|x a [IH IH2]]; [split; [constructor|reflexivity]|]. unfold diff, sqdist in *. cbn. split; [constructor; [ring|auto]|]. rewrite IH2. ring. Qed.

(** C106: the value is zero exactly at the solutions *)
Theorem C106_zero : forall {Tf} ndebug (ik : Tf -> list R -> list (list R)) tcp target seed largest q v,
  ik target seed <> [] -> (forall s, In s (ik target seed) -> length s = length q) ->
  (exists s, In s (ik target seed) /\ jdist s q < largest) ->
  ik_values sqrt largest ndebug ik tcp target seed q = Val v ->
  (Forall (fun x => x = 0) v <-> In q (ik target seed)).
Proof.
  intros Tf ndebug ik tcp target seed largest q v Hne Hlen Hl Hv.
  destruct (C106_nearest ndebug ik tcp target seed largest q Hne Hlen Hl) as (s & E & Hs & Hmin). rewrite E in Hv. injection Hv as <-. split.
  - intros F. apply diff_zero in F; [subst; auto|auto].
  - intros Hq. specialize (Hmin q Hq). unfold jdist in Hmin. rewrite (proj2 (diff_self q)), sqrt_0 in Hmin.
    pose proof (sqrt_pos (sqdist s q)). assert (Z : sqrt (sqdist s q) = 0) by lra. apply sqrt_eq_0 in Z; [|apply sqdist_pos].
    apply sqdist_zero in Z; [|auto]. subst. apply diff_self.
Qed.
Print Assumptions C106_zero.

Definition ex_ik (target : R) (seed : list R) : list (list R) := [[target + 1; 2]; [target; 0]].
Lemma ex_d1 : jdist [6; 2] [5; 1] = sqrt 2.
Proof. unfold jdist, sqdist. cbn. f_equal. ring. Qed.
Lemma ex_d2 : jdist [5; 0] [5; 1] = 1.
Proof. unfold jdist, sqdist. cbn. replace ((5 - 5) * (5 - 5) + ((0 - 1) * (0 - 1) + 0)) with 1 by ring. apply sqrt_1. Qed.
Lemma sqrt2_gt : 1 < sqrt 2.
Proof. rewrite <- sqrt_1 at 1. apply sqrt_lt_1; lra. Qed.
Example C106_ex : exists v, ik_values sqrt 1000 true ex_ik 0 5 [] [5; 1] = Val v /\ v = [0; -1].
Proof.
  destruct (C106_nearest true ex_ik 0 5 [] 1000 [5; 1]) as (s & E & Hs & Hmin).
  - discriminate.
  - cbn. intros s [<- | [<- | []]]; reflexivity.
  - exists [5; 0]. split; [right; left; reflexivity|]. rewrite ex_d2. lra.
  - rewrite E. exists (diff s [5; 1]). split; [reflexivity|]. cbn in Hs. destruct Hs as [<- | [<- | []]].
    + exfalso. specialize (Hmin [5; 0]). replace (5 + 1) with 6 in Hmin by ring. rewrite ex_d1, ex_d2 in Hmin. pose proof sqrt2_gt.
      assert (sqrt 2 <= 1) by (apply Hmin; right; left; reflexivity). lra.
    + unfold diff. cbn. repeat (apply (f_equal2 (@cons R)); [ring|]). reflexivity.
Qed.

(** ** The Jacobian *)
Lemma sqdist_upd a q k t : (k < length q)%nat -> length a = length q ->
  sqdist a (upd q k t) = (sqdist a q - (nth k a 0 - nth k q 0) * (nth k a 0 - nth k q 0)) + (nth k a 0 - t) * (nth k a 0 - t).
Proof.
  revert a k. induction q as [|y q IH]; intros a k Hk Hl; [inversion Hk|]. destruct a as [|x a]; [discriminate|].
  destruct k as [|k]; unfold sqdist; cbn.
  - ring.
  - cbn in Hk, Hl. specialize (IH a k ltac:(lia) ltac:(lia)). unfold sqdist in IH. rewrite IH. ring.
Qed.
Lemma sqdist_coord a q k : (k < length q)%nat -> length a = length q -> (nth k a 0 - nth k q 0) * (nth k a 0 - nth k q 0) <= sqdist a q.
Proof.
  revert a k. induction q as [|y q IH]; intros a k Hk Hl; [inversion Hk|]. destruct a as [|x a]; [discriminate|].
  destruct k as [|k]; unfold sqdist; cbn.
  - pose proof (sqdist_pos a q) as P. unfold sqdist in P. lra.
  - cbn in Hk, Hl. specialize (IH a k ltac:(lia) ltac:(lia)). unfold sqdist in IH. pose proof (Rle_0_sqr (x - y)) as Q. unfold Rsqr in Q. lra.
Qed.
Lemma sqrt_lip c x y : 0 <= c -> sqrt (c + x * x) - sqrt (c + y * y) <= Rabs (x - y).
Proof.
  intros Hc. set (u := sqrt (c + x * x)). set (v := sqrt (c + y * y)).
  assert (Hx : 0 <= c + x * x) by (pose proof (Rle_0_sqr x) as Q; unfold Rsqr in Q; lra).
  assert (Hy : 0 <= c + y * y) by (pose proof (Rle_0_sqr y) as Q; unfold Rsqr in Q; lra).
  assert (Hu : 0 <= u) by apply sqrt_pos. assert (Hv : 0 <= v) by apply sqrt_pos.
  assert (Huu : u * u = c + x * x) by (apply sqrt_sqrt; auto). assert (Hvv : v * v = c + y * y) by (apply sqrt_sqrt; auto).
  assert (Hyv : Rabs y <= v).
  { apply Rsqr_incr_0_var; auto. unfold Rsqr. rewrite Hvv. pose proof (Rabs_mult y y) as E. rewrite <- E. rewrite Rabs_right; [lra|].
    pose proof (Rle_0_sqr y) as Q; unfold Rsqr in Q; lra. }
  set (d := Rabs (x - y)). assert (Hd : 0 <= d) by apply Rabs_pos.
  assert (u <= v + d); [|lra]. apply Rsqr_incr_0_var; [|lra]. unfold Rsqr. rewrite Huu.
  replace ((v + d) * (v + d)) with (v * v + 2 * (v * d) + d * d) by ring. rewrite Hvv.
  assert (Hdd : d * d = (x - y) * (x - y)).
  { unfold d. rewrite <- Rabs_mult. apply Rabs_right. pose proof (Rle_0_sqr (x - y)) as Q; unfold Rsqr in Q; lra. }
  assert (Hyd : y * (x - y) <= v * d).
  { apply Rle_trans with (Rabs y * d); [|apply Rmult_le_compat_r; auto]. unfold d. rewrite <- Rabs_mult. apply Rle_abs. }
  rewrite Hdd. nra.
Qed.
Lemma jdist_lip a q k t : (k < length q)%nat -> length a = length q -> Rabs (jdist a (upd q k t) - jdist a q) <= Rabs (t - nth k q 0).
Proof.
  intros Hk Hl. unfold jdist. rewrite sqdist_upd by auto. set (c := sqdist a q - _).
  assert (Hc : 0 <= c) by (unfold c; pose proof (sqdist_coord a q k Hk Hl); lra).
  replace (sqdist a q) with (c + (nth k a 0 - nth k q 0) * (nth k a 0 - nth k q 0)) by (unfold c; ring).
  pose proof (sqrt_lip c (nth k a 0 - t) (nth k a 0 - nth k q 0) Hc) as L1. pose proof (sqrt_lip c (nth k a 0 - nth k q 0) (nth k a 0 - t) Hc) as L2.
  replace (nth k a 0 - t - (nth k a 0 - nth k q 0)) with (- (t - nth k q 0)) in L1 by ring. rewrite Rabs_Ropp in L1.
  replace (nth k a 0 - nth k q 0 - (nth k a 0 - t)) with (t - nth k q 0) in L2 by ring.
  apply Rabs_le. lra.
Qed.
Lemma d_near f g x a r : 0 < r -> (forall t, Rabs (t - x) < r -> f t = g t) -> derivable_pt_lim f x a -> derivable_pt_lim g x a.
Proof.
  intros Hr Hfg Hf e He. destruct (Hf e He) as [d Hd].
  exists (mkposreal (Rmin r d) (Rmin_pos _ _ Hr (cond_pos d))). cbn. intros h Hh Hlt.
  assert (H1 : Rabs h < r) by (eapply Rlt_le_trans; [exact Hlt|apply Rmin_l]).
  assert (H2 : Rabs h < d) by (eapply Rlt_le_trans; [exact Hlt|apply Rmin_r]).
  rewrite <- !Hfg. { auto. } { replace (x - x) with 0 by ring. rewrite Rabs_R0. auto. } { replace (x + h - x) with h by ring. auto. }
Qed.
Lemma gap (l : list R) m : (forall x, In x l -> m < x) -> exists g, 0 < g /\ forall x, In x l -> m + g <= x.
Proof.
  induction l as [|y l IH]; intros H; [exists 1; split; [lra|intros x []]|].
  destruct IH as (g & Hg & K); [intros; apply H; right; auto|]. exists (Rmin g (y - m)). split.
  - apply Rmin_pos; auto. specialize (H y (or_introl eq_refl)). lra.
  - intros x [<- | Hx]; [pose proof (Rmin_r g (y - m)); lra|]. specialize (K x Hx). pose proof (Rmin_l g (y - m)). lra.
Qed.
Lemma nth_diff a q i : (i < length q)%nat -> length a = length q -> nth i (diff a q) 0 = nth i a 0 - nth i q 0.
Proof.
  revert a i. induction q as [|y q IH]; intros a i Hi Hl; [inversion Hi|]. destruct a as [|x a]; [discriminate|].
  destruct i as [|i]; [reflexivity|]. cbn in *. apply IH; lia.
Qed.

(** C106: where one solution is strictly the closest, the reported Jacobian - minus the identity at the columns of
    the variable - is the derivative of the values: entry (i, k) is the derivative of value i in joint k *)
Theorem C106_jacobian : forall {Tf} ndebug (ik : Tf -> list R -> list (list R)) tcp target seed largest q s index,
  (forall s, In s (ik target seed) -> length s = length q) -> In s (ik target seed) -> jdist s q < largest ->
  (forall s', In s' (ik target seed) -> s' = s \/ jdist s q < jdist s' q) ->
  let value i x := match ik_values sqrt largest ndebug ik tcp target seed x with Val v => nth i v 0 | _ => 0 end in
  length (ik_jacobian (T := R) index (length q)) = length q /\
  forall i k, (i < length q)%nat -> (k < length q)%nat ->
    nth i (ik_jacobian (T := R) index (length q)) [] = [((index + i)%nat, -1)] /\
    derivable_pt_lim (fun t => value i (upd q k t)) (nth k q 0) (if (i =? k)%nat then -1 else 0).
Proof.
  intros Tf ndebug ik tcp target seed largest q s index Hlen Hs Hl Hstrict value. set (sols := ik target seed) in *.
  split; [unfold ik_jacobian; rewrite map_length, seq_length; reflexivity|]. intros i k Hi Hk.
  split; [unfold ik_jacobian; rewrite nth_map_seq by auto; rnum; reflexivity|].
  assert (Hne : sols <> []) by (destruct sols; [contradiction|discriminate]).
  destruct (gap (largest :: map (fun s' => jdist s' q) (filter (fun s' => negb (if list_eq_dec Req_EM_T s' s then true else false)) sols)) (jdist s q)) as (g & Hg & K).
  { intros x [<- | Hx]; auto. apply in_map_iff in Hx. destruct Hx as (s' & <- & Hs'). apply filter_In in Hs'. destruct Hs' as [Hs' N].
    destruct (Hstrict s' Hs') as [-> | ?]; auto. destruct (list_eq_dec Req_EM_T s s); [discriminate|congruence]. }
  apply (d_near (fun t => nth i s 0 - nth i (upd q k t) 0) _ _ _ (g / 2)); [lra| |].
  2:{ eapply d_eq; [|apply d_minus; [apply d_const|apply d_coord; auto]]. unfold delta. destruct (i =? k)%nat; ring. }
  intros t Ht. unfold value.
  assert (Hd : forall s', In s' sols -> Rabs (jdist s' (upd q k t) - jdist s' q) < g / 2).
  { intros s' Hs'. eapply Rle_lt_trans; [apply jdist_lip; auto|auto]. }
  assert (Hds := Hd s Hs). apply Rabs_def2 in Hds.
  destruct (C106_nearest ndebug ik tcp target seed largest (upd q k t)) as (s1 & E & Hs1 & Hmin); fold sols; auto.
  - intros s' Hs'. rewrite upd_length. auto.
  - exists s. split; auto. specialize (K largest (or_introl eq_refl)). lra.
  - rewrite E. fold sols in Hs1, Hmin. assert (s1 = s) as ->.
    { destruct (list_eq_dec Req_EM_T s1 s) as [|N]; auto. exfalso. specialize (Hmin s Hs). assert (Hd1 := Hd s1 Hs1). apply Rabs_def2 in Hd1.
      assert (jdist s q + g <= jdist s1 q).
      { apply K. right. apply in_map_iff. exists s1. split; auto. apply filter_In. split; auto. destruct (list_eq_dec Req_EM_T s1 s); [congruence|reflexivity]. }
      lra. }
    symmetry. apply nth_diff; rewrite ?upd_length; auto.
Qed.
Print Assumptions C106_jacobian.
Example C106_jacobian_ex : In [5; 0] (ex_ik 5 []) /\ jdist [5; 0] [5; 1] < 1000 /\
  (forall s', In s' (ex_ik 5 []) -> s' = [5; 0] \/ jdist [5; 0] [5; 1] < jdist s' [5; 1]).
Proof.
  split; [right; left; reflexivity|]. rewrite ex_d2. split; [lra|]. intros s' [<- | [<- | []]]; [right|left; reflexivity].
  replace (5 + 1) with 6 by ring. rewrite ex_d1. apply sqrt2_gt.
Qed.

(** C106 needs a solution: with assertions off and no solution the value is zero, which the default bounds accept, at
    every joint vector *)
Theorem C106_empty_refuted : exists (ik : R -> list R -> list (list R)) target seed,
  ik target seed = [] /\ forall largest tcp q, ik_values sqrt largest true ik tcp target seed q = Val (repeat 0 (length q)).
Proof. exists (fun _ _ => []), 0, []. split; [reflexivity|]. intros. reflexivity. Qed.
Print Assumptions C106_empty_refuted.
Example C106_empty_ex : ik_values sqrt 1000 true (fun _ _ => []) 0 0 [] [3; 4] = Val [0; 0].
Proof. reflexivity. Qed.
